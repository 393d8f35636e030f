(** Proofs about the capacity of bit_vector. *)
From Coq Require Import ZArith Bool List Lia.
From Verif Require Import Base WordOps IterModel RefModel Spec VecModel CapModel SpecVec SpecRoom SpecCap
  ProofBase ProofIter ProofVec ProofVec2 ProofVec3 ProofRoom.
Import ListNotations.
Open Scope Z_scope.

Lemma rbind_inv : forall A B (r : res A) (f : A -> res B) y, rbind r f = Ok y ->
  exists a, r = Ok a /\ f a = Ok y.
Proof. intros A B [a| | | |] f y H; try discriminate. exists a. auto. Qed.

Lemma on_words_ext_length : forall A l ext (c : M A) a l' e,
  on_words_ext l ext c = Ok (a, l', e) -> length l' = length l.
Proof.
  intros A l ext c a l' e H. unfold on_words_ext in H.
  destruct (c (vmem l ext)) as [[a' m]| | | |]; try discriminate.
  injection H as _ <- _. apply words_of_length.
Qed.

Lemma on_words_length : forall A l (c : M A) a l', on_words l c = Ok (a, l') ->
  length l' = length l.
Proof.
  intros A l c a l' H. unfold on_words in H. apply rbind_inv in H.
  destruct H as ([[a' l1] e] & H & E). injection E as _ <-.
  apply on_words_ext_length in H. exact H.
Qed.

Lemma wsize_nonneg : forall l, 0 <= wsize l.
Proof. intros l. unfold wsize. lia. Qed.

Lemma wsize_resize : forall l n, 0 <= n -> wsize (resize_words l n) = n.
Proof.
  intros l n Hn. unfold resize_words, wsize. destruct (Z.leb_spec n (Z.of_nat (length l))) as [C|C].
  - rewrite firstn_length. lia.
  - rewrite app_length, repeat_length. lia.
Qed.

(** Words enough for [n] bits. *)
Definition enough (w n k : Z) : Prop := k * w < n + w.

Lemma grow_size : forall w v n ws, valid_w w -> vec_ok w v -> vlen v <= n <= 2 ^ 24 ->
  grow w (vwords v) n = Ok ws -> wsize ws <= wsize (vwords v) \/ enough w n (wsize ws).
Proof.
  intros w v n ws Hw (V1 & V2 & V3) Hn. pose proof (valid_pos w Hw) as Pw.
  unfold max_bits in *. unfold grow. unfold wsize in *. rewrite !wrap_small by lia.
  rewrite (to_float_small n) by lia.
  set (cap := Z.of_nat (length (vwords v)) * w) in *.
  destruct (Z.leb_spec cap (2 ^ 24)) as [C|C].
  - rewrite (to_float_small cap) by lia. cbv zeta.
    destruct (Z.ltb_spec cap n) as [D|D].
    + rewrite (to_float_small (n - cap)) by lia.
      destruct (Z.ltb_spec (n - cap) (2 ^ 32)) as [E|E]; [|lia].
      pose proof (word_count_ok w (n - cap) Hw ltac:(lia)) as Hc.
      set (c := word_count w (n - cap)) in *.
      assert (0 <= c) by (clear - Hc D Pw; nia). intros H0. injection H0 as <-. right.
      unfold enough. fold (wsize (vwords v)).
      change (Z.of_nat (length (resize_words (vwords v) (wsize (vwords v) + c))))
        with (wsize (resize_words (vwords v) (wsize (vwords v) + c))).
      pose proof (wsize_nonneg (vwords v)).
      rewrite wsize_resize by lia. unfold wsize. rewrite Z.mul_add_distr_r. fold cap. lia.
    + intros H0. injection H0 as <-. left. lia.
  - cbv zeta. destruct (Z.ltb_spec (to_float cap) n) as [D|D].
    + pose proof (to_float_large cap ltac:(lia)). lia.
    + intros H0. injection H0 as <-. left. lia.
Qed.

Ltac inv_binds :=
  repeat match goal with
  | H : rbind _ _ = Ok _ |- _ =>
    apply rbind_inv in H; let a := fresh "a" in let E := fresh "E" in
    destruct H as (a & E & H);
    repeat match type of a with (_ * _)%type => let b := fresh "b" in destruct a as [a b] end
  | H : Ok _ = Ok _ |- _ => injection H as; subst
  | H : on_words _ _ = Ok _ |- _ => apply on_words_length in H
  | H : on_words_ext _ _ _ = Ok _ |- _ => apply on_words_ext_length in H
  end.

Lemma pop_word_size : forall l l', pop_word l = Ok l' -> wsize l' <= wsize l.
Proof.
  intros [|x l] l' H; [discriminate|]. cbn [pop_word] in H. injection H as <-.
  unfold wsize. pose proof (app_removelast_last 0 (l := x :: l) ltac:(discriminate)) as E.
  apply (f_equal (@length Z)) in E. rewrite app_length in E. rewrite E. apply inj_le, Nat.le_add_r.
Qed.

Lemma see_iter_inv : forall w r x v, see_iter w r = Ok (x, v) -> exists it, r = Ok (it, v).
Proof.
  intros w r x v H. unfold see_iter in H. apply rbind_inv in H.
  destruct H as ([it v1] & E & H). apply rbind_inv in H. destruct H as (i & _ & H).
  injection H as _ <-. exists it. exact E.
Qed.

Lemma see_throw_inv : forall v r x v', see_throw v r = Ok (x, v') ->
  v' = v \/ r = Ok (x, v').
Proof. intros v [a| | | |] x v' H; cbn in H; try discriminate; [right; exact H|injection H as _ <-; auto]. Qed.

Lemma pushed_size : forall w v l', 8 <= w -> vec_ok w v ->
  length l' = length (if wrap 64 (wsize (vwords v) * w) =? vlen v then vwords v ++ [0] else vwords v) ->
  wsize l' <= wsize (vwords v) \/ enough w (vlen v + 1) (wsize l').
Proof.
  intros w v l' Pw (V1 & V2 & V3) H. unfold wsize, max_bits in *. rewrite wrap_small in H by lia.
  rewrite H. destruct (Z.eqb_spec (Z.of_nat (length (vwords v)) * w) (vlen v)) as [C|C].
  - right. unfold enough. rewrite app_length. cbn [length]. lia.
  - left. lia.
Qed.

Lemma word_count_enough : forall w n, valid_w w -> 0 <= n ->
  0 <= word_count w n /\ enough w n (word_count w n).
Proof.
  intros w n Hw Hn. pose proof (valid_pos w Hw) as Pw. unfold word_count, enough.
  assert (H : 0 <= wrap 32 n <= n).
  { unfold wrap. pose proof (Z.mod_pos_bound n (2 ^ 32) ltac:(lia)).
    pose proof (Z.mod_le n (2 ^ 32) ltac:(lia) ltac:(lia)). lia. }
  set (x := wrap 32 n) in *. clearbody x.
  pose proof (Z.div_mod (x + w - 1) w ltac:(lia)). pose proof (Z.mod_pos_bound (x + w - 1) w ltac:(lia)).
  split; [apply Z.div_pos; lia|lia].
Qed.

Lemma rwp_inv : forall A (r : res A) Q a, rwp r Q -> r = Ok a -> Q a.
Proof. intros A r Q a H E. rewrite E in H. exact H. Qed.

Lemma iadd_inv : forall w it n it', valid_w w -> valid_it w it -> - 2 ^ 62 <= n <= 2 ^ 62 ->
  iadd w it n = Ok it' -> valid_it w it' /\ addr w it' = addr w it + n.
Proof.
  intros w it n it' Hw V Hn E. apply (rwp_inv _ _ (fun x => valid_it w x /\ addr w x = addr w it + n) _) in E; [exact E|].
  apply rwp_iadd; [assumption..|]. auto.
Qed.

Lemma wrap64_nonneg : forall n, 0 <= wrap 64 n.
Proof. intros n. unfold wrap. apply Z.mod_pos_bound. lia. Qed.

(** How many words there are after a call. *)
Lemma vstep_size : forall p w v o x v', valid_w w -> vec_ok w v -> vpre p w (vbits w v) o ->
  vstep p w v o = Ok (x, v') ->
  match o with OpAssign other | OpMoveAssign other => vwords v' = vwords other | _ =>
  wsize (vwords v') <= wsize (vwords v) \/ enough w (vlen v') (wsize (vwords v')) end.
Proof.
  intros p w v o x v' Hw V Pre H. pose proof (valid_pos w Hw) as Pw. pose proof V as (V1 & V2 & V3).
  pose proof (vbits_length w v ltac:(lia) V) as Hn. unfold max_bits in *.
  destruct o; cbn [vstep vpre] in *; rewrite ?Hn in Pre.
  - inv_binds. unfold push_back in E. inv_binds. cbn [vwords vlen]. rewrite wrap_small by lia.
    eapply pushed_size; eauto. lia.
  - inv_binds. unfold pop_back in E.
    match type of E with context [if ?c then _ else _] => destruct c end; inv_binds; cbn [vwords vlen]; left;
      [eapply pop_word_size; eassumption|lia].
  - inv_binds. apply see_iter_inv in H. destruct H as (it & H). unfold insert1 in H. inv_binds.
    cbn [vwords vlen]. rewrite wrap_small by lia. eapply pushed_size; eauto. lia.
  - inv_binds. apply see_iter_inv in H. destruct H as (it & H). unfold insert_n in H. inv_binds.
    destruct (Z.eqb_spec n 0) as [C|C]; inv_binds; [left; lia|]. cbn [vwords vlen].
    rewrite wrap_small by lia. destruct Pre as (P1 & P2 & P3 & P4).
    match goal with Hg : grow _ _ _ = Ok _ |- _ => apply grow_size in Hg; [|assumption..|lia] end.
    unfold wsize in *. match goal with Hl : length _ = length _ |- _ => rewrite Hl end. assumption.
  - inv_binds. apply see_iter_inv in H. destruct H as (it & H).
    apply rbind_inv in H. destruct H as ([[it1 v1] ext'] & E2 & H). injection H as <- <-.
    destruct Pre as (P1 & P2 & P3 & P4 & P5 & P6 & P7). unfold max_bits in P5.
    assert (Ve : valid_it w (ext_begin src)) by (unfold valid_it, ext_begin; cbn; lia).
    match goal with H1 : iadd w (ext_begin src) j = Ok _, H2 : iadd w (ext_begin src) k = Ok _ |- _ =>
      apply iadd_inv in H1; [|assumption..|lia]; apply iadd_inv in H2; [|assumption..|lia];
      destruct H1 as [F1 F2]; destruct H2 as [G1 G2] end.
    unfold insert_range in E2. apply rbind_inv in E2. destruct E2 as (d & _ & E2).
    rewrite distance_eq in E2 by (assumption || lia). cbn [rbind] in E2.
    rewrite F2, G2 in E2.
    replace (addr w (ext_begin src) + k - (addr w (ext_begin src) + j)) with (k - j) in E2 by lia.
    rewrite (wrap_small 64 (k - j)) in E2 by lia.
    destruct (Z.eqb_spec (k - j) 0) as [C|C]; inv_binds; [left; lia|]. cbn [vwords vlen].
    rewrite wrap_small by lia.
    match goal with Hg : grow _ _ _ = Ok _ |- _ => apply grow_size in Hg; [|assumption..|lia] end.
    unfold wsize in *. match goal with Hl : length _ = length _ |- _ => rewrite Hl end. assumption.
  - inv_binds. apply see_iter_inv in H. destruct H as (it & H). unfold erase1 in H. inv_binds.
    match type of H with context [if ?c then _ else _] => destruct c end; inv_binds; cbn [vwords vlen]; left;
      [match goal with Hp : pop_word _ = Ok _ |- _ => apply pop_word_size in Hp end|]; unfold wsize in *; lia.
  - inv_binds. apply see_iter_inv in H. destruct H as (it & H). unfold erase_range in H. inv_binds.
    match type of H with context [if ?c then _ else _] => destruct c end; inv_binds; [left; lia|].
    cbn [vwords vlen]. right.
    match goal with |- enough _ ?n _ => destruct (word_count_enough w n Hw (wrap64_nonneg _)) as [C1 C2] end.
    rewrite wsize_resize by assumption. assumption.
  - inv_binds. unfold vset in *. inv_binds. cbn [vwords vlen]. left. unfold wsize. lia.
  - apply see_throw_inv in H. destruct H as [H|H]; [subst; left; lia|]. inv_binds. unfold vat_set in *.
    match goal with Hx : context [if ?c then _ else _] |- _ => destruct c end; [|discriminate].
    unfold vset in *. inv_binds. cbn [vwords vlen]. left. unfold wsize. lia.
  - inv_binds. left. lia.
  - apply see_throw_inv in H. destruct H as [H|H]; [subst; left; lia|]. inv_binds. left. lia.
  - inv_binds. left. lia.
  - inv_binds. left. lia.
  - inv_binds. left. lia.
  - inv_binds. left. lia.
  - inv_binds. left. apply wsize_nonneg.
  - inv_binds. left. apply Z.le_refl.
  - inv_binds. left. apply Z.le_refl.
  - inv_binds. unfold resize. cbn [vwords vlen]. right. pose proof (word_count_ok w n Hw ltac:(lia)) as Hc.
    rewrite wsize_resize by (clear - Hc Pw Pre; nia). unfold enough. lia.
  - inv_binds. reflexivity.
  - inv_binds. reflexivity.
Qed.

(** push_back and insert(pos, value) add at most one word. *)
Lemma pushed_one : forall w v (l' : list Z),
  length l' = length (if wrap 64 (wsize (vwords v) * w) =? vlen v then vwords v ++ [0] else vwords v) ->
  zlen l' <= zlen (vwords v) + 1.
Proof.
  intros w v l' H. unfold zlen. rewrite H.
  match goal with |- context [if ?c then _ else _] => destruct c end; [rewrite app_length; cbn [length]|]; lia.
Qed.

Lemma push_one : forall p w v o x v', vstep p w v o = Ok (x, v') ->
  match o with OpPush _ | OpInsert _ _ => zlen (vwords v') <= zlen (vwords v) + 1 | _ => True end.
Proof.
  intros p w v o x v' H. destruct o; try exact I; cbn [vstep] in H.
  - inv_binds. unfold push_back in E. inv_binds. cbn [vwords]. eapply pushed_one; eauto.
  - inv_binds. apply see_iter_inv in H. destruct H as (it & H). unfold insert1 in H. inv_binds.
    cbn [vwords]. eapply pushed_one; eauto.
Qed.

Lemma reserve_bits : forall w n, valid_w w -> 0 <= word_count w n /\ word_count w n * w <= max_bits.
Proof.
  intros w n Hw. pose proof (valid_pos w Hw) as Pw. unfold word_count, max_bits.
  assert (H : 0 <= wrap 32 n < 2 ^ 32) by (unfold wrap; apply Z.mod_pos_bound; lia).
  set (x := wrap 32 n) in *. clearbody x.
  pose proof (Z.div_mod (x + w - 1) w ltac:(lia)). pose proof (Z.mod_pos_bound (x + w - 1) w ltac:(lia)).
  split; [apply Z.div_pos; lia|lia].
Qed.

(** One call keeps the vector in its buffer. *)
Lemma cstep_ok : forall g p w c o, valid_w w -> growth_ok w g -> cap_ok w c ->
  vpre p w (vbits w (fst c)) o ->
  exists v', vstep p w (fst c) o = Ok (fst (vspec w (vbits w (fst c)) o), v') /\
    cstep g p w c o = Ok (fst (vspec w (vbits w (fst c)) o),
                          (v', buffer_after g w (fst c) v' (snd c) o)) /\
    cap_ok w (v', buffer_after g w (fst c) v' (snd c) o) /\
    vbits w v' = snd (vspec w (vbits w (fst c)) o).
Proof.
  intros g p w [v b] o Hw [G1 G2] (V & B1 & B2) Pre. cbn [fst snd] in *.
  pose proof (valid_pos w Hw) as Pw.
  pose proof (vstep_wp p w v o Hw V Pre) as H. apply rwp_exists in H.
  destruct H as ([x v'] & E & H1 & H2 & H3). cbn [fst snd] in *. subst x.
  exists v'. split; [assumption|]. unfold cstep. cbn [fst snd]. rewrite E. cbn [rbind].
  split; [reflexivity|]. split; [|assumption]. split; [assumption|]. cbn [fst snd].
  pose proof H2 as (_ & K2 & K3). fold (zlen (vwords v')) in K2, K3.
  pose proof V as (_ & K4 & K5). fold (zlen (vwords v)) in K4, K5.
  assert (RF : forall s n, n * w <= max_bits -> n <= bcap (room_for g b s n) /\
    bcap b <= bcap (room_for g b s n) /\ bcap (room_for g b s n) * w < 2 ^ 64).
  { intros s n Hn. unfold room_for. destruct (Z.leb_spec n (bcap b)) as [C|C]; [lia|]. cbn [bcap].
    pose proof (G2 s (bcap b) n Hn). lia. }
  assert (RP : forall n, n <= zlen (vwords v) + 1 -> n <= bcap (room_push g b n) /\
    bcap (room_push g b n) * w < 2 ^ 64).
  { intros n Hn. unfold room_push. destruct (Z.leb_spec n (bcap b)) as [C|C]; [lia|]. cbn [bcap].
    assert (D : bcap b = zlen (vwords v)) by lia. rewrite D in *.
    pose proof (G1 (zlen (vwords v)) K5). lia. }
  pose proof (push_one p w v o _ v' E) as One.
  destruct o; unfold buffer_after; change (wsize (vwords v')) with (zlen (vwords v'));
    change (wsize (vwords v)) with (zlen (vwords v));
    try (split; apply RF; assumption); try (apply RP; assumption).
  - injection E as <-.
    pose proof (RF (zlen (vwords v)) (word_count w n) (proj2 (reserve_bits w n Hw))).
    unfold vreserve. lia.
  - injection E as <-. unfold vshrink_to_fit in *.
    destruct (g_shrink g && (zlen (vwords v) <? bcap b)); cbn [bcap]; unfold max_bits in *; lia.
  - cbn [bcap]. apply G2. assumption.
Qed.

Lemma crun_ok : forall g p w os c, valid_w w -> growth_ok w g -> cap_ok w c ->
  vpre_all p w (vbits w (fst c)) os ->
  exists c', crun g p w c os = Ok (fst (vspec_run w (vbits w (fst c)) os), c') /\
    cap_ok w c' /\ vbits w (fst c') = snd (vspec_run w (vbits w (fst c)) os).
Proof.
  intros g p w os. induction os as [|o os IH]; intros c Hw G K Pre.
  - exists c. cbn. auto.
  - cbn [vpre_all] in Pre. destruct Pre as [P1 P2].
    destruct (cstep_ok g p w c o Hw G K P1) as (v1 & _ & E & K1 & B1).
    rewrite <- B1 in P2. destruct (IH _ Hw G K1 P2) as (c2 & E2 & K2 & B2).
    exists c2. cbn [crun vspec_run]. rewrite E. cbn [rbind]. rewrite E2. cbn [rbind fst] in *.
    rewrite B1 in *. destruct (vspec w (vbits w (fst c)) o) as [x l1]. cbn [fst snd] in *.
    destruct (vspec_run w l1 os) as [xs l2]. cbn [fst snd] in *. auto.
Qed.

Lemma capacity_value : forall w c, valid_w w -> cap_ok w c ->
  vcapacity w (snd c) = bcap (snd c) * w /\ vlen (fst c) <= vcapacity w (snd c).
Proof.
  intros w [v b] Hw (V & B1 & B2). cbn [fst snd] in *. pose proof (valid_pos w Hw) as Pw.
  destruct V as (_ & V2 & _). fold (zlen (vwords v)) in V2. unfold vcapacity.
  assert (0 <= zlen (vwords v)) by (unfold zlen; lia).
  assert (zlen (vwords v) * w <= bcap b * w) by (apply Z.mul_le_mono_nonneg_r; lia).
  rewrite wrap_small by (split; lia). lia.
Qed.

Lemma capacity_ok : forall g p w os c, valid_w w -> growth_ok w g -> cap_ok w c ->
  vpre_all p w (vbits w (fst c)) os ->
  exists c', crun g p w c os = Ok (fst (vspec_run w (vbits w (fst c)) os), c') /\
    cap_ok w c' /\ vbits w (fst c') = snd (vspec_run w (vbits w (fst c)) os) /\
    vsize (fst c') <= vcapacity w (snd c').
Proof.
  intros g p w os c Hw G K Pre. destruct (crun_ok g p w os c Hw G K Pre) as (c' & E & K' & B).
  exists c'. destruct (capacity_value w c' Hw K') as [_ C]. auto.
Qed.

Lemma enough_le : forall w n k c, 0 < w -> enough w n k -> n <= c * w -> k <= c.
Proof. intros w n k c Hw H Hn. unfold enough in H. clear - Hw H Hn. nia. Qed.

(** A call that stays within the room. *)
Lemma step_quiet : forall g p w c o n, valid_w w -> growth_ok w g -> cap_ok w c ->
  vpre p w (vbits w (fst c)) o -> n <= vcapacity w (snd c) ->
  asks_at_most w n o -> zlen (snd (vspec w (vbits w (fst c)) o)) <= n ->
  exists v', vstep p w (fst c) o = Ok (fst (vspec w (vbits w (fst c)) o), v') /\
    cstep g p w c o = Ok (fst (vspec w (vbits w (fst c)) o), (v', snd c)) /\
    cap_ok w (v', snd c) /\ vbits w v' = snd (vspec w (vbits w (fst c)) o).
Proof.
  intros g p w [v b] o n Hw G K Pre Hn Ask Hl.
  destruct (capacity_value w _ Hw K) as [Cv _].
  destruct (cstep_ok g p w (v, b) o Hw G K Pre) as (v' & E1 & E2 & K' & B).
  exists v'. cbn [fst snd] in *.
  assert (N : buffer_after g w v v' b o = b).
  { destruct K as (V & B1 & B2). cbn [fst snd] in *. pose proof (valid_pos w Hw) as Pw.
    pose proof (vstep_size p w v o _ v' Hw V Pre E1) as S.
    pose proof (vbits_length w v' ltac:(lia) (proj1 K')) as L.
    rewrite B in L. rewrite L in Hl. cbn [fst] in L, Hl.
    assert (S' : match o with OpAssign _ | OpMoveAssign _ => True | _ => wsize (vwords v') <= bcap b end).
    { destruct o; try exact I;
        (destruct S as [S|S]; [unfold zlen, wsize in *; lia|apply (enough_le w (vlen v')); [lia|assumption|lia]]). }
    assert (RF : forall s k, k <= bcap b -> room_for g b s k = b).
    { intros s k Hk. unfold room_for. destruct (Z.leb_spec k (bcap b)) as [C|C]; [reflexivity|lia]. }
    assert (RP : forall k, k <= bcap b -> room_push g b k = b).
    { intros k Hk. unfold room_push. destruct (Z.leb_spec k (bcap b)) as [C|C]; [reflexivity|lia]. }
    destruct o; unfold buffer_after; try (apply RF; assumption); try (apply RP; assumption);
      cbn [asks_at_most] in Ask; try contradiction.
    - destruct (word_count_enough w n0 Hw ltac:(lia)) as [W1 W2]. apply RF.
      apply (enough_le w n0); [lia|assumption|lia].
    - apply RF. rewrite S. unfold zlen, wsize in *. clear - Ask Hn Cv Pw. nia. }
  rewrite N in *. auto.
Qed.

Lemma run_quiet : forall g p w os c n, valid_w w -> growth_ok w g -> cap_ok w c ->
  vpre_all p w (vbits w (fst c)) os -> n <= vcapacity w (snd c) ->
  stays_within w n (vbits w (fst c)) os ->
  exists v', crun g p w c os = Ok (fst (vspec_run w (vbits w (fst c)) os), (v', snd c)) /\
    cap_ok w (v', snd c) /\ vbits w v' = snd (vspec_run w (vbits w (fst c)) os).
Proof.
  intros g p w os. induction os as [|o os IH]; intros c n Hw G K Pre Hn St.
  - exists (fst c). destruct c. cbn. auto.
  - cbn [vpre_all] in Pre. destruct Pre as [P1 P2]. cbn [stays_within] in St. destruct St as (S1 & S2 & S3).
    destruct (step_quiet g p w c o n Hw G K P1 Hn S1 S2) as (v1 & _ & E & K1 & B1).
    rewrite <- B1 in P2, S3. destruct (IH _ n Hw G K1 P2 Hn S3) as (v2 & E2 & K2 & B2).
    exists v2. cbn [crun vspec_run]. rewrite E. cbn [rbind]. rewrite E2. cbn [rbind fst snd] in *.
    rewrite B1 in *. destruct (vspec w (vbits w (fst c)) o) as [x l1]. cbn [fst snd] in *.
    destruct (vspec_run w l1 os) as [xs l2]. cbn [fst snd] in *. auto.
Qed.

(** Iterators held across a history that stays within the room. *)
Lemma held_ok : forall g p w os c n i x, valid_w w -> growth_ok w g -> cap_ok w c ->
  vpre_all p w (vbits w (fst c)) os -> n <= vcapacity w (snd c) ->
  stays_within w n (vbits w (fst c)) os ->
  0 <= i < zlen (snd (vspec_run w (vbits w (fst c)) os)) ->
  exists c' c'', crun g p w c os = Ok (fst (vspec_run w (vbits w (fst c)) os), c') /\
    vbits w (fst c') = snd (vspec_run w (vbits w (fst c)) os) /\
    held_get p w c' (hold c i) = Ok (get_at i (snd (vspec_run w (vbits w (fst c)) os))) /\
    held_set p w c' (hold c i) x = Ok c'' /\
    vbits w (fst c'') = set_at i x (snd (vspec_run w (vbits w (fst c)) os)).
Proof.
  intros g p w os c n i x Hw G K Pre Hn St Hi. pose proof (valid_pos w Hw) as Pw.
  destruct (run_quiet g p w os c n Hw G K Pre Hn St) as (v' & E & K' & B).
  pose proof (proj1 K') as V'. cbn [fst] in V'.
  pose proof (vbits_length w v' ltac:(lia) V') as L. rewrite B in L. rewrite L in Hi.
  pose proof (vset_wp p w v' i x Hw V' Hi) as S. apply rwp_exists in S.
  destruct S as (v2 & S1 & S2 & S3).
  exists (v', snd c), (v2, snd c). split; [exact E|]. cbn [fst snd]. split; [exact B|].
  unfold held_get, held_set, hold. cbn [hserial hpos fst snd]. rewrite Z.eqb_refl.
  rewrite S1. cbn [rbind fst]. rewrite <- B.
  split; [apply vget_ok; assumption|]. split; [reflexivity|]. exact S3.
Qed.

Lemma reserve_ok : forall g p w c n os, valid_w w -> growth_ok w g -> cap_ok w c -> 0 <= n < 2 ^ 32 ->
  vpre_all p w (vbits w (fst c)) os -> stays_within w n (vbits w (fst c)) os ->
  exists b v', cstep g p w c (OpReserve n) = Ok (ONone, (fst c, b)) /\
    n <= vcapacity w b /\ vcapacity w (snd c) <= vcapacity w b /\
    (n <= vcapacity w (snd c) -> b = snd c) /\
    crun g p w (fst c, b) os = Ok (fst (vspec_run w (vbits w (fst c)) os), (v', b)) /\
    vbits w v' = snd (vspec_run w (vbits w (fst c)) os).
Proof.
  intros g p w c n os Hw G K Hn Pre St. pose proof (valid_pos w Hw) as Pw.
  destruct (cstep_ok g p w c (OpReserve n) Hw G K I) as (v' & E1 & E2 & K' & B).
  cbn [vstep] in E1. injection E1 as <-. unfold vreserve in *.
  set (b := buffer_after g w (fst c) (fst c) (snd c) (OpReserve n)) in *.
  pose proof (word_count_ok w n Hw Hn) as Hc.
  destruct (capacity_value w _ Hw K) as [C1 _]. destruct (capacity_value w _ Hw K') as [C2 _].
  cbn [snd] in C2.
  assert (Q : n <= bcap b * w /\ bcap (snd c) * w <= bcap b * w /\
              (n <= bcap (snd c) * w -> b = snd c)).
  { unfold b, buffer_after, room_for.
    destruct (Z.leb_spec (word_count w n) (bcap (snd c))) as [D|D].
    - split; [|split; [lia|reflexivity]]. clear - D Hc Pw. nia.
    - cbn [bcap]. destruct G as [_ G2].
      pose proof (G2 (wsize (vwords (fst c))) (bcap (snd c)) (word_count w n)
        (proj2 (reserve_bits w n Hw))) as [G3 _].
      set (q := g_other g (wsize (vwords (fst c))) (bcap (snd c)) (word_count w n)) in *. clearbody q.
      split; [clear - D Hc Pw G3; nia|]. split; [clear - D G3 Pw; nia|].
      intros F. exfalso. clear - F D Hc Pw. nia. }
  destruct Q as (Q1 & Q2 & Q3).
  destruct (run_quiet g p w os (fst c, b) n Hw G K' Pre ltac:(cbn [snd]; lia) St) as (v2 & E & _ & B2).
  exists b, v2. split; [exact E2|]. split; [lia|]. split; [lia|]. split; [rewrite C1; exact Q3|].
  split; [exact E|]. exact B2.
Qed.

(** reserve from 2^32 bits on. *)
Lemma reserve_large : forall g p w c n, valid_w w -> cap_ok w c -> 2 ^ 32 <= n ->
  n mod 2 ^ 32 <= vcapacity w (snd c) ->
  cstep g p w c (OpReserve n) = Ok (ONone, c).
Proof.
  intros g p w [v b] n Hw K Hn Hm. pose proof (valid_pos w Hw) as Pw.
  destruct (capacity_value w _ Hw K) as [C1 _]. cbn [snd] in *. unfold cstep. cbn [vstep rbind fst snd].
  unfold buffer_after, room_for, vreserve, word_count, wrap.
  pose proof (Z.mod_pos_bound n (2 ^ 32) ltac:(lia)) as M. set (x := n mod 2 ^ 32) in *. clearbody x.
  pose proof (Z.div_mod (x + w - 1) w ltac:(lia)) as D1.
  pose proof (Z.mod_pos_bound (x + w - 1) w ltac:(lia)) as D2. set (q := (x + w - 1) / w) in *. clearbody q.
  destruct (Z.leb_spec q (bcap b)) as [D|D]; [reflexivity|]. exfalso. clear - D D1 D2 C1 Hm Pw. nia.
Qed.

(** The number of reallocations. *)
Lemma step_single : forall g p w c o, valid_w w -> growth_ok w g -> cap_ok w c ->
  vpre p w (vbits w (fst c)) o -> one_at_a_time o ->
  exists v' b', cstep g p w c o = Ok (fst (vspec w (vbits w (fst c)) o), (v', b')) /\
    cap_ok w (v', b') /\ vbits w v' = snd (vspec w (vbits w (fst c)) o) /\
    (b' = snd c \/ (b' = Buf (g_push g (bcap (snd c))) (bserial (snd c) + 1) /\
                    bcap (snd c) * w < zlen (snd (vspec w (vbits w (fst c)) o)))).
Proof.
  intros g p w [v b] o Hw G K Pre One. pose proof (valid_pos w Hw) as Pw.
  destruct (cstep_ok g p w (v, b) o Hw G K Pre) as (v' & E1 & E2 & K' & B). cbn [fst snd] in *.
  exists v', (buffer_after g w v v' b o). split; [exact E2|]. split; [exact K'|]. split; [exact B|].
  pose proof K as (V & B1 & B2). cbn [fst snd] in *. pose proof V as (_ & V2 & V3).
  fold (zlen (vwords v)) in V2, V3.
  pose proof (vstep_size p w v o _ v' Hw V Pre E1) as S.
  pose proof (vbits_length w v' ltac:(lia) (proj1 K')) as L. cbn [fst] in L. rewrite B in L.
  pose proof (vbits_length w v ltac:(lia) V) as L0.
  pose proof (push_one p w v o _ v' E1) as P1.
  assert (RP : (wsize (vwords v') <= wsize (vwords v) \/ enough w (vlen v') (wsize (vwords v'))) ->
    room_push g b (wsize (vwords v')) = b \/
    (room_push g b (wsize (vwords v')) = Buf (g_push g (bcap b)) (bserial b + 1) /\
     bcap b * w < zlen (snd (vspec w (vbits w v) o)))).
  { intros S'. unfold room_push. destruct (Z.leb_spec (wsize (vwords v')) (bcap b)) as [C|C]; [auto|].
    right. split; [reflexivity|]. rewrite L. destruct S' as [S'|S'].
    - unfold zlen, wsize in *. lia.
    - unfold enough in S'. set (k := wsize (vwords v')) in *. clearbody k.
      assert (w * (bcap b + 1) <= w * k) by (apply Z.mul_le_mono_nonneg_l; lia). lia. }
  assert (RF : vlen v' <= vlen v ->
    (wsize (vwords v') <= wsize (vwords v) \/ enough w (vlen v') (wsize (vwords v'))) ->
    room_for g b (wsize (vwords v)) (wsize (vwords v')) = b).
  { intros Hl S'. unfold room_for. destruct (Z.leb_spec (wsize (vwords v')) (bcap b)) as [C|C]; [reflexivity|].
    exfalso. destruct S' as [S'|S'].
    - unfold zlen, wsize in *. lia.
    - unfold enough in S'. set (k := wsize (vwords v')) in *. clearbody k.
      assert (w * (bcap b + 1) <= w * k) by (apply Z.mul_le_mono_nonneg_l; lia).
      assert (zlen (vwords v) * w <= bcap b * w) by (apply Z.mul_le_mono_nonneg_r; lia). lia. }
  assert (LE : match o with OpPush _ | OpInsert _ _ | OpInsertN _ _ _ | OpInsertRange _ _ _ _
    | OpAssign _ | OpMoveAssign _ => True | _ => vlen v' <= vlen v end).
  { destruct o; try exact I; cbn [vspec vpre snd] in L, Pre; rewrite <- L, <- L0; clear - L0 Pre;
      rewrite ?L0 in Pre; unfold zlen in *.
    - rewrite removelast_firstn_len, firstn_length. lia.
    - unfold erase_at. rewrite app_length, firstn_length, skipn_length. lia.
    - unfold erase_at. rewrite app_length, firstn_length, skipn_length. lia.
    - unfold set_at. rewrite !app_length, firstn_length, skipn_length. cbn [length]. lia.
    - destruct (Z.ltb_spec i (Z.of_nat (length (vbits w v)))) as [C|C]; cbn [snd]; [|lia].
      unfold set_at. rewrite !app_length, firstn_length, skipn_length. cbn [length]. lia.
    - lia.
    - lia.
    - lia.
    - lia.
    - lia.
    - lia.
    - cbn [length]. lia.
    - lia.
    - lia.
    - rewrite firstn_length. lia. }
  destruct o; cbn [one_at_a_time] in One; try contradiction; unfold buffer_after;
    try (apply RP; assumption); left; apply RF; assumption.
Qed.

Lemma reallocations_inv : forall g p w os c n s0, valid_w w -> growth_ok w g -> doubles g ->
  cap_ok w c -> vpre_all p w (vbits w (fst c)) os -> Forall one_at_a_time os ->
  stays_within w n (vbits w (fst c)) os -> 0 <= n ->
  (bserial (snd c) = s0 \/
   s0 < bserial (snd c) /\ 2 ^ (bserial (snd c) - s0 - 1) <= bcap (snd c) /\
   2 ^ (bserial (snd c) - s0) * w < 4 * (n + w)) ->
  exists c', crun g p w c os = Ok (fst (vspec_run w (vbits w (fst c)) os), c') /\
    vbits w (fst c') = snd (vspec_run w (vbits w (fst c)) os) /\
    (bserial (snd c') = s0 \/
     s0 < bserial (snd c') /\ 2 ^ (bserial (snd c') - s0) * w < 4 * (n + w)).
Proof.
  intros g p w os. induction os as [|o os IH]; intros c n s0 Hw G D K Pre One St Hn Inv.
  - exists c. cbn. split; [reflexivity|]. split; [reflexivity|]. intuition.
  - cbn [vpre_all] in Pre. destruct Pre as [P1 P2]. cbn [stays_within] in St. destruct St as (_ & S2 & S3).
    inversion One as [|? ? O1 O2]. subst.
    destruct (step_single g p w c o Hw G K P1 O1) as (v1 & b1 & E & K1 & B1 & Bf).
    rewrite <- B1 in P2, S3. pose proof (valid_pos w Hw) as Pw.
    destruct (IH (v1, b1) n s0 Hw G D K1 P2 O2 S3 Hn) as (c2 & E2 & B2 & R).
    { cbn [snd]. destruct Bf as [->|[-> Z1]]; [exact Inv|]. cbn [bserial bcap]. right.
      assert (N : bcap (snd c) * w < n) by lia.
      assert (0 <= bcap (snd c)) by (destruct K as (_ & C1 & _); unfold zlen in C1; lia).
      assert (P : 1 <= g_push g (bcap (snd c))).
      { pose proof (vbits_length w v1 ltac:(lia) (proj1 K1)) as L. rewrite <- B1 in Z1.
        destruct K1 as ((_ & C1 & _) & C2 & _). cbn [fst snd bcap] in *.
        unfold zlen in *. clear - Z1 L C1 C2 Pw H. nia. }
      clear - D Inv N Pw Hn P H.
      set (q := bcap (snd c)) in *. set (s := bserial (snd c)) in *. clearbody q s.
      pose proof (D q) as Dq. destruct Inv as [I1|(I1 & I2 & I3)].
      - subst s0. replace (s + 1 - s - 1) with 0 by lia. replace (s + 1 - s) with 1 by lia.
        change (2 ^ 0) with 1. change (2 ^ 1) with 2. lia.
      - replace (s + 1 - s0 - 1) with (s - s0 - 1 + 1) by lia.
        replace (s + 1 - s0) with (s - s0 - 1 + 2) by lia. rewrite !Z.pow_add_r by lia.
        set (t := 2 ^ (s - s0 - 1)) in *. clearbody t. change (2 ^ 1) with 2. change (2 ^ 2) with 4.
        split; [lia|]. split; [lia|]. clear - I2 N Pw. nia. }
    exists c2. cbn [crun vspec_run]. rewrite E. cbn [rbind]. rewrite E2. cbn [rbind fst snd] in *.
    rewrite B1 in *. destruct (vspec w (vbits w (fst c)) o) as [x l1]. cbn [fst snd] in *.
    destruct (vspec_run w l1 os) as [xs l2]. cbn [fst snd] in *. auto.
Qed.

Lemma reallocations : forall g p w os c n, valid_w w -> growth_ok w g -> doubles g ->
  cap_ok w c -> vpre_all p w (vbits w (fst c)) os -> Forall one_at_a_time os ->
  stays_within w n (vbits w (fst c)) os -> 0 <= n ->
  exists c', crun g p w c os = Ok (fst (vspec_run w (vbits w (fst c)) os), c') /\
    vbits w (fst c') = snd (vspec_run w (vbits w (fst c)) os) /\
    bserial (snd c) <= bserial (snd c') /\
    (bserial (snd c') = bserial (snd c) \/ 2 ^ (bserial (snd c') - bserial (snd c)) * w < 4 * (n + w)).
Proof.
  intros g p w os c n Hw G D K Pre One St Hn.
  destruct (reallocations_inv g p w os c n (bserial (snd c)) Hw G D K Pre One St Hn (or_introl eq_refl))
    as (c' & E & B & R). exists c'. split; [exact E|]. split; [exact B|].
  destruct R as [R|[R1 R2]]; [rewrite R; split; [lia|auto]|split; [lia|auto]].
Qed.

(** The words after insert(pos, count, value). *)
Lemma insert_n_words : forall p w v pos c b r v', insert_n p w v pos c b = Ok (r, v') -> c <> 0 ->
  exists ws, grow w (vwords v) (vlen v + c) = Ok ws /\ length (vwords v') = length ws.
Proof.
  intros p w v pos c b r v' H Hc. unfold insert_n in H. inv_binds.
  destruct (Z.eqb_spec c 0) as [C|C]; [contradiction|]. inv_binds. eauto.
Qed.

(** A bulk insertion that fits and gets a new buffer all the same. *)
Lemma rounds_8 : rounds (2 ^ 28 + 8) (2 ^ 28).
Proof. right. exists 5, (2 ^ 23). vm_compute. intuition congruence. Qed.
Lemma rounds_24 : rounds (2 ^ 28 + 24) (2 ^ 28 + 32).
Proof. right. exists 5, (2 ^ 23 + 1). vm_compute. intuition congruence. Qed.

Lemma insert_reallocates : forall g p v s b, words_ok 8 (vwords v) ->
  zlen (vwords v) = 2 ^ 25 + 1 -> vlen v = 2 ^ 28 + 8 ->
  exists x v', cstep g p 8 (v, Buf (2 ^ 25 + 3) s) (OpInsertN (2 ^ 28 + 8) 16 b) =
    Ok (x, (v', Buf (g_other g (2 ^ 25 + 1) (2 ^ 25 + 3) (2 ^ 25 + 5)) (s + 1))) /\
    vbits 8 v' = vbits 8 v ++ repeat b 16.
Proof.
  intros g p v s b W Lw Lv.
  assert (Hw : valid_w 8) by (unfold valid_w; lia).
  assert (V : vec_ok 8 v).
  { split; [exact W|]. fold (zlen (vwords v)). rewrite Lw, Lv. unfold max_bits. lia. }
  pose proof (rwp_iadd 8 vbegin (2 ^ 28 + 8)
    (fun it => valid_it 8 it /\ addr 8 it = 2 ^ 28 + 8) Hw (begin_valid 8 ltac:(lia)) ltac:(lia)) as I0.
  destruct (rwp_exists _ _ _ (I0 ltac:(rewrite begin_addr; auto))) as (pos & Ep & Vp & Ap).
  destruct (insert_n_exact p 8 v pos (2 ^ 28 + 8) 16 b (2 ^ 28 + 40) Hw V ltac:(lia)
    ltac:(rewrite Lv; unfold max_bits; lia)
    ltac:(rewrite Lw, Lv; exists (2 ^ 28), (2 ^ 28 + 32); split; [exact rounds_8|]; split; [exact rounds_24|];
      right; split; [lia|]; exists 32; split; [left; lia|]; split; [lia|];
      split; [exists (2 ^ 25 + 5); reflexivity|lia])
    ltac:(unfold max_bits; lia) Vp Ap ltac:(lia) ltac:(lia)) as [Fit _].
  destruct (Fit ltac:(lia)) as (r & v' & E & Vr & Ar & V' & B). clear Fit.
  destruct (insert_n_words p 8 v pos 16 b r v' E ltac:(lia)) as (ws & Gr & Lws).
  assert (Sz : wsize (vwords v') = 2 ^ 25 + 5).
  { unfold wsize. rewrite Lws. fold (zlen ws).
    unfold grow in Gr. change (wsize (vwords v)) with (zlen (vwords v)) in Gr. rewrite Lw, Lv in Gr.
    change (to_float (wrap 64 ((2 ^ 25 + 1) * 8))) with (2 ^ 28) in Gr.
    change (to_float (wrap 64 (2 ^ 28 + 8 + 16))) with (2 ^ 28 + 32) in Gr.
    cbv zeta in Gr. change (2 ^ 28 <? 2 ^ 28 + 32) with true in Gr. cbn iota in Gr.
    change (to_float (2 ^ 28 + 32 - 2 ^ 28)) with 32 in Gr. change (32 <? 2 ^ 32) with true in Gr.
    cbn iota in Gr. change (word_count 8 32) with 4 in Gr. injection Gr as <-.
    match goal with |- zlen (resize_words ?l ?n) = _ =>
      transitivity n; [apply (wsize_resize l n); lia|reflexivity] end. }
  exists (OIdx (2 ^ 28 + 8)), v'. split.
  - unfold cstep. cbn [fst snd]. cbn [vstep]. rewrite Ep. cbn [rbind]. rewrite E. unfold see_iter.
    cbn [rbind]. rewrite idiff_eq; [|assumption|assumption|apply begin_valid; lia|rewrite begin_addr; lia].
    cbn [rbind]. rewrite begin_addr, Ar, Z.sub_0_r. unfold buffer_after, room_for. rewrite Sz.
    change (wsize (vwords v)) with (zlen (vwords v)). rewrite Lw. cbn [bcap bserial].
    change (2 ^ 25 + 5 <=? 2 ^ 25 + 3) with false. reflexivity.
  - rewrite B. pose proof (vbits_length 8 v ltac:(lia) V) as L. rewrite Lv in L. unfold insert_at.
    unfold zlen in L. rewrite firstn_all2, skipn_all2 by lia. rewrite app_nil_r. reflexivity.
Qed.

Lemma full_vector_exists : exists ws, zlen ws = 2 ^ 25 + 1 /\ words_ok 8 ws.
Proof.
  exists (repeat 0 (Z.to_nat (2 ^ 25 + 1))). split; [|apply words_ok_zeros; lia].
  unfold zlen. rewrite repeat_length, Z2Nat.id by lia. reflexivity.
Qed.

Lemma insert_reallocates_exists : exists w c i n b, valid_w w /\ cap_ok w c /\
  0 <= i <= zlen (vbits w (fst c)) /\ zlen (vbits w (fst c)) + n <= vcapacity w (snd c) /\
  forall g p, exists x c', cstep g p w c (OpInsertN i n b) = Ok (x, c') /\
    vbits w (fst c') = insert_at i (repeat b (Z.to_nat n)) (vbits w (fst c)) /\
    held_get p w c' (hold c 0) = UB BadUse.
Proof.
  destruct full_vector_exists as (ws & L & W).
  assert (V : vec_ok 8 (BV ws (2 ^ 28 + 8))).
  { split; [exact W|]. cbn [vwords vlen]. fold (zlen ws). rewrite L. unfold max_bits. lia. }
  pose proof (vbits_length 8 _ ltac:(lia) V) as Lb. cbn [vlen] in Lb.
  exists 8, (BV ws (2 ^ 28 + 8), Buf (2 ^ 25 + 3) 0), (2 ^ 28 + 8), 16, true. cbn [fst snd].
  split; [unfold valid_w; lia|].
  split. { split; [exact V|]. cbn [fst snd vwords bcap]. rewrite L. lia. }
  split; [lia|]. split. { rewrite Lb. vm_compute. discriminate. }
  intros g p.
  destruct (insert_reallocates g p (BV ws (2 ^ 28 + 8)) 0 true W L eq_refl) as (x & v' & E & B).
  exists x, (v', Buf (g_other g (2 ^ 25 + 1) (2 ^ 25 + 3) (2 ^ 25 + 5)) (0 + 1)).
  split; [exact E|]. cbn [fst]. split; [|reflexivity]. rewrite B. unfold insert_at, zlen in *.
  rewrite firstn_all2, skipn_all2 by lia. rewrite app_nil_r. reflexivity.
Qed.
