(** Proofs about the constructors of bit_vector when an allocation may fail. *)
From Coq Require Import ZArith Bool List Lia.
From Verif Require Import Base WordOps IterModel RefModel AlgModel ShiftModel Spec VecModel CapModel
  FailModel CtorModel SpecVec SpecCap SpecFail SpecCtor ProofBase ProofIter ProofVec ProofVec2 ProofVec3
  ProofVec4 ProofCap ProofFail.
Import ListNotations.
Open Scope Z_scope.

(** The buffer for [l] made in a constructor. *)
Definition first_buffer (g : growth) (l : list Z) : buffer :=
  if zlen l =? 0 then Buf 0 0 else Buf (g_other g 0 0 (zlen l)) 1.

Lemma words_make_ok : forall al g l n,
  (exists f, al (g_other g 0 0 (zlen l)) = Some f /\ l <> [] /\
     words_make al g l (BV [] n, Buf 0 0) = Ok (Exception (Refused f), (BV [] n, Buf 0 0))) \/
  ((l <> [] -> al (g_other g 0 0 (zlen l)) = None) /\
   words_make al g l (BV [] n, Buf 0 0) = Ok (Value tt, (BV l n, first_buffer g l))).
Proof.
  intros al g l n. unfold words_make, first_buffer. change (wsize l) with (zlen l). cbn [fst snd vlen bserial].
  destruct (Z.eqb_spec (zlen l) 0) as [C|C].
  - right. split; [|reflexivity]. intros N. destruct l; [congruence|]. unfold zlen in C. cbn [length] in C. lia.
  - assert (N : l <> []) by (intros ->; apply C; reflexivity).
    destruct (al (g_other g 0 0 (zlen l))) as [f|] eqn:F; [left|right].
    + exists f. auto.
    + split; [auto|reflexivity].
Qed.

Lemma first_buffer_cap : forall w g v, valid_w w -> growth_ok w g -> vec_ok w v ->
  forall l, zlen l = zlen (vwords v) -> cap_ok w (v, first_buffer g l).
Proof.
  intros w g v Vw [_ G] V l E. pose proof V as (_ & _ & B). fold (zlen (vwords v)) in B. split; [exact V|]. cbn [fst snd].
  unfold first_buffer. destruct (Z.eqb_spec (zlen l) 0) as [C|C]; cbn [bcap]; [lia|].
  rewrite E. apply G. exact B.
Qed.

(** A constructor that gives word_vector the words [l] and then turns them into those
    of [v] without asking for more. *)
Definition builds (al : allocator) (g : growth) (p : policy) (w : Z) (s : source) (l : list Z)
  (v : bvec) : Prop :=
  (exists f, al (g_other g 0 0 (zlen l)) = Some f /\ l <> [] /\
     exists c, body al g p w s unborn = Ok (Exception (Refused f), c)) \/
  ((l <> [] -> al (g_other g 0 0 (zlen l)) = None) /\
   body al g p w s unborn = Ok (Value tt, (v, first_buffer g l))).

Lemma zlen_repeat : forall (x : Z) n, zlen (repeat x n) = Z.of_nat n.
Proof. intros x n. unfold zlen. rewrite repeat_length. reflexivity. Qed.

Lemma fill_builds : forall al g p w n b,
  builds al g p w (FromFill n b) (vwords (ctor_fill w n b)) (ctor_fill w n b).
Proof.
  intros al g p w n b. unfold builds, body, make_fill, unborn, xbind, ctor_fill, copies. cbn [vwords].
  destruct (words_make_ok al g (repeat (if b then wrap w (-1) else 0) (Z.to_nat (word_count w n))) 0)
    as [(f & F & N & E)|[F E]]; rewrite E; cbn [rbind].
  - left. exists f. eauto.
  - right. split; [exact F|reflexivity].
Qed.

Lemma count_builds : forall al g p w n,
  builds al g p w (FromCount n) (vwords (ctor_count w n)) (ctor_count w n).
Proof.
  intros al g p w n. unfold builds, body, make_count, unborn, xbind, ctor_count, copies. cbn [vwords].
  destruct (words_make_ok al g (repeat 0 (Z.to_nat (word_count w n))) 0)
    as [(f & F & N & E)|[F E]]; rewrite E; cbn [rbind].
  - left. exists f. eauto.
  - right. split; [exact F|reflexivity].
Qed.

Lemma words_builds : forall al g p w ws,
  builds al g p w (FromWords ws) ws (ctor_words w ws).
Proof.
  intros al g p w ws. unfold builds, body, make_words, unborn, xbind, ctor_words.
  destruct (words_make_ok al g ws 0) as [(f & F & N & E)|[F E]]; rewrite E; cbn [rbind].
  - left. exists f. eauto.
  - right. split; [exact F|reflexivity].
Qed.

Lemma copy_builds : forall al g v,
  (exists f, al (g_other g 0 0 (zlen (vwords v))) = Some f /\ vwords v <> [] /\
     exists c, make_copy al g v unborn = Ok (Exception (Refused f), c)) \/
  ((vwords v <> [] -> al (g_other g 0 0 (zlen (vwords v))) = None) /\
   make_copy al g v unborn = Ok (Value tt, (ctor_copy v, first_buffer g (vwords v)))).
Proof.
  intros al g v. unfold make_copy, unborn, xbind, ctor_copy.
  destruct (words_make_ok al g (vwords v) 0) as [(f & F & N & E)|[F E]]; rewrite E; cbn [rbind].
  - left. exists f. eauto.
  - right. split; [exact F|reflexivity].
Qed.

Lemma bools_builds : forall al g p w bs v, ctor_bools p w bs = Ok v ->
  builds al g p w (FromBools bs) (repeat 0 (length bs)) v.
Proof.
  intros al g p w bs v H. unfold ctor_bools in H. rinv H y E. destruct y as [u l]. injection H as <-.
  unfold builds, body, make_bools, unborn, xbind, copies. rewrite Nat2Z.id.
  destruct (words_make_ok al g (repeat 0 (length bs)) 0) as [(f & F & N & X)|[F X]]; rewrite X; cbn [rbind].
  - left. exists f. eauto.
  - right. split; [exact F|]. unfold set_len, alg_on. cbn [rbind fst snd vwords vlen]. rewrite E.
    cbn [rbind]. destruct u. reflexivity.
Qed.

Lemma string_builds : forall al g p w s v, ctor_string p w s = Ok v ->
  builds al g p w (FromString s) (repeat 0 (length (string_bits s))) v.
Proof.
  intros al g p w s v H. unfold ctor_string in H. rinv H y E. destruct y as [u l]. injection H as <-.
  pose proof (string_bits_len s) as L.
  assert (N0 : Z.to_nat (count_char 48 s + count_char 49 s) = length (string_bits s))
    by (rewrite <- L; unfold zlen; apply Nat2Z.id).
  unfold builds, body, make_string, unborn, xbind, copies, set_len, len. cbn [rbind fst snd vwords vlen].
  rewrite N0 in *.
  destruct (words_make_ok al g (repeat 0 (length (string_bits s))) (count_char 48 s + count_char 49 s))
    as [(f & F & N & X)|[F X]]; rewrite X; cbn [rbind].
  - left. exists f. eauto.
  - right. split; [exact F|]. unfold alg_on. cbn [rbind fst snd vwords vlen]. rewrite E.
    cbn [rbind]. destruct u. reflexivity.
Qed.

Lemma bits_builds : forall al g p w src i j, valid_w w -> can_ask w (FromBits src i j) ->
  exists v, builds al g p w (FromBits src i j) (repeat 0 (Z.to_nat (j - i))) v /\
    zlen (vwords v) = j - i /\
    vec_ok w v /\ vbits w v = slice i j (list_bits w src).
Proof.
  intros al g p w src i j Vw (Hi & Hj & Ws & Hs & Hd). pose proof (valid_pos w Vw) as Pw.
  unfold max_bits in Hs, Hd.
  assert (Ve : valid_it w (ext_begin src)) by (unfold valid_it, ext_begin; cbn; lia).
  assert (Ae : addr w (ext_begin src) = (- zlen src - 64) * w)
    by (unfold addr, ext_begin, wsize; cbn [ib ip]; unfold zlen; lia).
  assert (0 <= zlen src) by (unfold zlen; lia).
  assert (X : forall n, 0 <= n <= zlen src * w -> exists it, iadd w (ext_begin src) n = Ok it /\
    valid_it w it /\ addr w it = addr w (ext_begin src) + n).
  { intros n Hx. apply rwp_exists, rwp_iadd; [assumption..|lia|auto]. }
  destruct (X i ltac:(lia)) as (f & Ef & Vf & Af). destruct (X j ltac:(lia)) as (l & El & Vl & Al). clear X.
  assert (D : addr w l - addr w f = j - i) by lia.
  assert (Hl : addr w l <= 0) by (rewrite Al, Ae; nia).
  destruct (ctor_bits_ok p w (ext_mem src) f l) as (v & ext' & Ec & _ & V & B); try assumption.
  { intros a Ha. apply ext_none. assumption. }
  { apply ext_wf. assumption. }
  { split; [assumption|]. split; [assumption|]. unfold max_bits. split; [lia|].
    rewrite Af, Al, Ae. apply ext_mapped; lia. }
  { rewrite D. exact Hd. }
  exists v. pose proof (distance_eq w f l Vw Vf Vl ltac:(lia)) as Ed. rewrite D in Ed.
  unfold ctor_bits in Ec. rewrite Ed in Ec. cbn [rbind] in Ec. rinv Ec y E. destruct y as [[u ll] e'].
  injection Ec as <- <-. pose proof (zlen_on_words_ext _ _ _ _ _ _ _ E) as Lz. rewrite zlen_repeat in Lz.
  split; [|split; [cbn [vwords]; lia|split; [exact V|]]].
  - assert (Eb : body al g p w (FromBits src i j) unborn = make_bits al g p w (ext_mem src) f l unborn)
      by (cbn [body]; unfold xbind, xlift; rewrite Ef; cbn [rbind]; rewrite El; reflexivity).
    unfold builds. rewrite Eb. unfold make_bits, xbind, xlift, copies. rewrite Ed. cbn [rbind].
    rewrite !(wrap_small 64 (j - i)) by lia. unfold unborn.
    destruct (words_make_ok al g (repeat 0 (Z.to_nat (j - i))) 0) as [(h & F & N & X)|[F X]]; rewrite X; cbn [rbind].
    + left. exists h. eauto.
    + right. split; [exact F|]. unfold set_len, alg_on_ext. cbn [rbind fst snd vwords vlen].
      rewrite E. reflexivity.
  - rewrite B. apply list_ext.
    + rewrite zlen_slice; [|lia|unfold zlen in *; rewrite list_bits_length by lia; lia].
      unfold zlen. rewrite map_length, seq_length. lia.
    + assert (L : zlen (map (fun k0 => bit w (ext_mem src) (addr w f + Z.of_nat k0))
        (seq 0 (Z.to_nat (addr w l - addr w f)))) = j - i)
        by (unfold zlen; rewrite map_length, seq_length; lia).
      rewrite L. intros x Hx. rewrite get_slice by lia.
      rewrite <- ext_bit by lia. unfold get_at.
      set (gg := fun k0 => bit w (ext_mem src) (addr w f + Z.of_nat k0)).
      rewrite (nth_indep _ false (gg O)) by (rewrite map_length, seq_length; lia).
      rewrite map_nth, seq_nth by lia. unfold gg. f_equal. lia.
Qed.

(** The initializer_list: calls of push_back. *)
Lemma push_each_ok : forall al g p w bs c, valid_w w -> growth_ok w g -> cap_ok w c ->
  zlen (vbits w (fst c)) + zlen bs + w <= max_bits ->
  zlen (vwords (fst c)) = fewest w (zlen (vbits w (fst c))) ->
  (exists c', push_each al g p w bs c = Ok (Value tt, c') /\ cap_ok w c' /\
     vbits w (fst c') = vbits w (fst c) ++ bs /\
     zlen (vwords (fst c')) = fewest w (zlen (vbits w (fst c) ++ bs))) \/
  (exists n f c', al n = Some f /\ bs <> [] /\ push_each al g p w bs c = Ok (Exception (Refused f), c')).
Proof.
  intros al g p w. induction bs as [|b bs IH]; intros c Vw G K Hb Fw; cbn [push_each].
  - left. exists c. rewrite app_nil_r. auto.
  - pose proof (valid_pos w Vw) as Pw.
    assert (Hz : zlen (b :: bs) = zlen bs + 1) by (unfold zlen; cbn [length]; lia).
    assert (Hn : 0 <= zlen bs) by (unfold zlen; lia).
    pose proof (fail_call al (Library g false) p w c (OpPush b) Vw G K) as H.
    cbn [vpre vspec fst snd l_growth l_gives_away xstep ended] in H.
    specialize (H ltac:(lia) ltac:(discriminate)).
    assert (N : forall o c', xnone (xpush_back al g p w b) c = Ok (o, c') ->
      xpush_back al g p w b c = Ok (match o with Value _ => Value tt | Exception e => Exception e end, c')).
    { intros o c' E. unfold xnone, xbind, xret in E. rinv E y E1. destruct y as [[[]|e] c1].
      - injection E as <- <-. exact E1.
      - injection E as <- <-. exact E1. }
    destruct H as [(c1 & E & K1 & B1 & Cs)|(n & f & F & _ & E)]; apply N in E.
    + assert (Ex : (xpush_back al g p w b ;x push_each al g p w bs) c = push_each al g p w bs c1)
        by (unfold xbind; rewrite E; reflexivity).
      rewrite Ex.
      assert (Lb : zlen (vbits w (fst c) ++ [b]) = zlen (vbits w (fst c)) + 1)
        by (unfold zlen; rewrite app_length; cbn [length]; lia).
      assert (Fw1 : zlen (vwords (fst c1)) = fewest w (zlen (vbits w (fst c1)))).
      { rewrite B1, Lb. unfold cstep in Cs. rinv Cs y Ev. destruct y as [o v']. injection Cs as _ <-.
        cbn [vstep] in Ev. rinv Ev v1 Ep. injection Ev as _ <-. unfold push_back in Ep. rinv Ep y El.
        destruct y as [u l']. injection Ep as <-. cbn [fst vwords].
        rewrite (zlen_on_words _ _ _ _ _ El). pose proof K as ((_ & Kl & Km) & _ & _). fold (zlen (vwords (fst c))) in Kl, Km.
        pose proof (vbits_length w (fst c) ltac:(lia) (proj1 K)) as Lv. unfold max_bits in Km.
        change (wsize (vwords (fst c))) with (zlen (vwords (fst c))).
        assert (0 <= zlen (vwords (fst c))) by (unfold zlen; lia).
        rewrite wrap_small by lia. rewrite Lv in *. unfold fewest in *.
        set (k := zlen (vwords (fst c))) in *. set (n := vlen (fst c)) in *.
        pose proof (Z.div_mod (n + w - 1) w ltac:(lia)) as D1. pose proof (Z.mod_pos_bound (n + w - 1) w ltac:(lia)) as D2.
        rewrite <- Fw in D1.
        destruct (Z.eqb_spec (k * w) n) as [Q|Q].
        - rewrite zlen_push. fold k. apply Z.div_unique with (n + 1 + w - 1 - w * (k + 1)); [left|]; lia.
        - fold k. apply Z.div_unique with (n + 1 + w - 1 - w * k); [left|]; lia. }
      destruct (IH c1 Vw G K1) as [(c' & E2 & K2 & B2 & F2)|(n & f & c' & F & N2 & E2)].
      * rewrite B1, Lb. lia.
      * exact Fw1.
      * left. exists c'. rewrite B1, <- app_assoc in B2, F2. auto.
      * right. exists n, f, c'. split; [exact F|]. split; [discriminate|exact E2].
    + right. exists n, f, c. split; [exact F|]. split; [discriminate|].
      unfold xbind at 1. rewrite E. reflexivity.
Qed.

(** Everything about a construction. *)
Lemma construct_all : forall al g p w s, valid_w w -> growth_ok w g -> can_ask w s ->
  (exists c, construct al g p w s = Ok (Made c) /\ cap_ok w c /\ vbits w (fst c) = asked w s /\
     zlen (vwords (fst c)) =
       match s with
       | FromCopy o | FromMove o | FromMoveAlloc o => zlen (vwords o)
       | _ => if one_word_per_bit s then zlen (asked w s) else fewest w (zlen (asked w s))
       end /\
     ((forall bs, s <> FromInit bs) ->
      bcap (snd c) = if zlen (vwords (fst c)) =? 0 then 0 else g_other g 0 0 (zlen (vwords (fst c))))) \/
  (exists n f, al n = Some f /\ stores w s /\
     construct al g p w s = Ok (if is_noexcept s then Terminated else Threw (Refused f))).
Proof.
  intros al g p w s Vw G A. pose proof (valid_pos w Vw) as Pw. unfold construct.
  assert (Bu : forall l v, builds al g p w s l v -> vec_ok w v -> vbits w v = asked w s ->
    zlen l = zlen (vwords v) -> (l <> [] -> stores w s) ->
    zlen (vwords v) =
       match s with
       | FromCopy o | FromMove o | FromMoveAlloc o => zlen (vwords o)
       | _ => if one_word_per_bit s then zlen (asked w s) else fewest w (zlen (asked w s))
       end ->
    (exists c, (let? (o, c) := body al g p w s unborn in
       match o with
       | Value _ => Ok (Made c)
       | Exception e => Ok (if is_noexcept s then Terminated else Threw e)
       end) = Ok (Made c) /\ cap_ok w c /\ vbits w (fst c) = asked w s /\
       zlen (vwords (fst c)) =
       match s with
       | FromCopy o | FromMove o | FromMoveAlloc o => zlen (vwords o)
       | _ => if one_word_per_bit s then zlen (asked w s) else fewest w (zlen (asked w s))
       end /\
       ((forall bs, s <> FromInit bs) ->
        bcap (snd c) = if zlen (vwords (fst c)) =? 0 then 0 else g_other g 0 0 (zlen (vwords (fst c))))) \/
    (exists n f, al n = Some f /\ stores w s /\
       (let? (o, c) := body al g p w s unborn in
       match o with
       | Value _ => Ok (Made c)
       | Exception e => Ok (if is_noexcept s then Terminated else Threw e)
       end) = Ok (if is_noexcept s then Terminated else Threw (Refused f)))).
  { intros l v [(f & F & N & c & E)|[F E]] V B L St Zw; rewrite E; cbn [rbind].
    - right. exists (g_other g 0 0 (zlen l)), f. auto.
    - left. exists (v, first_buffer g l). split; [reflexivity|]. split; [apply first_buffer_cap; assumption|].
      split; [exact B|]. split; [exact Zw|]. intros _. cbn [fst snd]. unfold first_buffer. rewrite L.
      destruct (zlen (vwords v) =? 0); reflexivity. }
  assert (Fz : forall n, 0 <= n < 2 ^ 32 -> word_count w n = fewest w n)
    by (intros n Hn; unfold word_count, fewest; rewrite wrap_small by lia; reflexivity).
  assert (Fn : forall n, 0 <= n -> 0 <= fewest w n) by (intros n Hn; unfold fewest; apply Z.div_pos; lia).
  assert (Rn : forall (b : bool) n, 0 <= n -> zlen (repeat b (Z.to_nat n)) = n)
    by (intros b n Hn; unfold zlen; rewrite repeat_length; lia).
  assert (F0 : fewest w 0 = 0) by (unfold fewest; apply Z.div_small; lia).
  assert (Z0 : forall (l : list Z) (bs : list bool), zlen l = fewest w (zlen bs) -> l <> [] -> bs <> []).
  { intros l bs E N ->. apply N. destruct l; [reflexivity|]. change (zlen (@nil bool)) with 0 in E. rewrite F0 in E.
    unfold zlen in E. cbn [length] in E. lia. }
  destruct s as [|n|n b|src i j|bs|ws|bs|t|o|o|o]; cbn [can_ask] in A.
  - left. exists unborn. cbn [body]. split; [reflexivity|].
    split; [split; [split; [constructor|cbn; unfold max_bits; lia]|cbn; lia]|].
    split; [reflexivity|]. split; [cbn [asked one_word_per_bit]; change (zlen (@nil bool)) with 0; rewrite F0; reflexivity|].
    intros _. reflexivity.
  - destruct (ctor_count_ok w n Vw A) as [V B].
    assert (L : zlen (vwords (ctor_count w n)) = fewest w n)
      by (unfold ctor_count; cbn [vwords]; rewrite zlen_repeat, Fz by lia; pose proof (Fn n); lia).
    apply (Bu _ _ (count_builds al g p w n) V B eq_refl); cbn [stores asked one_word_per_bit].
    + apply Z0. rewrite Rn by lia. exact L.
    + rewrite Rn by lia. exact L.
  - destruct (ctor_fill_ok w n b Vw A) as [V B].
    assert (L : zlen (vwords (ctor_fill w n b)) = fewest w n)
      by (unfold ctor_fill; cbn [vwords]; rewrite zlen_repeat, Fz by lia; pose proof (Fn n); lia).
    apply (Bu _ _ (fill_builds al g p w n b) V B eq_refl); cbn [stores asked one_word_per_bit].
    + apply Z0. rewrite Rn by lia. exact L.
    + rewrite Rn by lia. exact L.
  - destruct (bits_builds al g p w src i j Vw A) as (v & Bd & L & V & B). destruct A as (Hi & Hj & Ws & Hs & Hd).
    assert (Ls : zlen (slice i j (list_bits w src)) = j - i)
      by (rewrite zlen_slice; [reflexivity|lia|unfold zlen in *; rewrite list_bits_length by lia; lia]).
    apply (Bu _ _ Bd V B); cbn [stores asked one_word_per_bit].
    + rewrite zlen_repeat. lia.
    + intros N E. rewrite E in Ls. change (zlen (@nil bool)) with 0 in Ls. apply N.
      replace (j - i) with 0 by lia. reflexivity.
    + lia.
  - destruct (ctor_bools_ok p w bs Vw A) as (v & E & V & B).
    assert (L : zlen (vwords v) = zlen bs).
    { unfold ctor_bools in E. rinv E y E1. destruct y as [u l]. injection E as <-. cbn [vwords].
      rewrite (zlen_on_words _ _ _ _ _ E1), zlen_repeat. reflexivity. }
    apply (Bu _ _ (bools_builds al g p w bs v E) V B); cbn [stores asked one_word_per_bit].
    + rewrite zlen_repeat. symmetry. exact L.
    + intros N ->. apply N. reflexivity.
    + exact L.
  - destruct A as [A1 A2]. destruct (ctor_words_ok w ws Vw A1 A2) as [V B].
    assert (L : zlen ws = fewest w (zlen (list_bits w ws))).
    { unfold zlen at 2. rewrite list_bits_length by lia. fold (zlen ws). unfold fewest.
      apply Z.div_unique with (w - 1); [left; lia|]. unfold zlen. lia. }
    apply (Bu _ _ (words_builds al g p w ws) V B eq_refl); cbn [stores asked one_word_per_bit].
    + apply Z0. exact L.
    + exact L.
  - cbn [body]. unfold make_init, xbind, unborn, set_len. cbn [rbind fst snd vwords vlen].
    assert (K0 : cap_ok w (BV [] 0, Buf 0 0)) by (split; [split; [constructor|cbn; unfold max_bits; lia]|cbn; lia]).
    assert (B0 : vbits w (fst (BV [] 0, Buf 0 0)) = []) by reflexivity.
    destruct (push_each_ok al g p w bs (BV [] 0, Buf 0 0) Vw G K0) as [(c' & E & K & B & L)|(n & f & c' & F & N & E)].
    + rewrite B0. change (zlen (@nil bool)) with 0. lia.
    + rewrite B0. change (zlen (@nil bool)) with 0. rewrite F0. reflexivity.
    + left. exists c'. rewrite E. cbn [rbind]. rewrite B0 in *. cbn [app] in *. split; [reflexivity|].
      split; [exact K|]. split; [exact B|]. split; [exact L|]. intros N. exfalso. apply (N bs). reflexivity.
    + right. exists n, f. rewrite E. cbn [rbind]. split; [exact F|]. split; [exact N|reflexivity].
  - destruct (ctor_string_ok p w t Vw A) as (v & E & V & B).
    assert (L : zlen (vwords v) = zlen (string_bits t)).
    { unfold ctor_string in E. rinv E y E1. destruct y as [u l]. injection E as <-. cbn [vwords].
      rewrite (zlen_on_words _ _ _ _ _ E1), zlen_repeat, string_bits_len. unfold count_char. lia. }
    apply (Bu _ _ (string_builds al g p w t v E) V B); cbn [stores asked one_word_per_bit].
    + rewrite zlen_repeat. symmetry. exact L.
    + intros N E0. apply N. rewrite E0. reflexivity.
    + exact L.
  - apply (Bu (vwords o) (ctor_copy o) (copy_builds al g o)); try reflexivity; [|auto].
    exact (proj1 (proj1 (copy_move_ok w o A))).
  - apply (Bu (vwords o) (ctor_copy o) (copy_builds al g o)); try reflexivity; [|auto].
    exact (proj1 (proj1 (copy_move_ok w o A))).
  - apply (Bu (vwords o) (ctor_copy o) (copy_builds al g o)); try reflexivity; [|auto].
    exact (proj1 (proj1 (copy_move_ok w o A))).
Qed.

Lemma construct_ok : forall al g p w s, valid_w w -> growth_ok w g -> can_ask w s ->
  (exists c, construct al g p w s = Ok (Made c) /\ cap_ok w c /\ vbits w (fst c) = asked w s) \/
  (exists n f, al n = Some f /\ stores w s /\
     (~ moves s /\ construct al g p w s = Ok (Threw (Refused f)) \/
      moves s /\ construct al g p w s = Ok Terminated)).
Proof.
  intros al g p w s Vw G A. destruct (construct_all al g p w s Vw G A) as [(c & E & K & B & _)|(n & f & F & S & E)].
  - left. exists c. auto.
  - right. exists n, f. split; [exact F|]. split; [exact S|].
    destruct s; cbn [moves is_noexcept] in *; auto; exfalso; apply S; reflexivity.
Qed.

Lemma move_terminates : forall al g p w other, vwords other <> [] ->
  (forall n, al n <> None) -> construct al g p w (FromMove other) = Ok Terminated.
Proof.
  intros al g p w other N R. unfold construct. cbn [body].
  destruct (copy_builds al g other) as [(f & _ & _ & c & E)|[F E]].
  - rewrite E. reflexivity.
  - exfalso. exact (R _ (F N)).
Qed.

Lemma construct_words : forall al g p w s c, valid_w w -> growth_ok w g -> can_ask w s ->
  construct al g p w s = Ok (Made c) ->
  (forall other, s <> FromCopy other /\ s <> FromMove other /\ s <> FromMoveAlloc other) ->
  zlen (vwords (fst c)) = if one_word_per_bit s then zlen (asked w s) else fewest w (zlen (asked w s)).
Proof.
  intros al g p w s c Vw G A E N.
  destruct (construct_all al g p w s Vw G A) as [(c' & E' & _ & _ & L & _)|(n & f & _ & _ & E')].
  - rewrite E in E'. injection E' as <-. rewrite L. destruct s; try reflexivity;
      exfalso; destruct (N other) as (N1 & N2 & N3); congruence.
  - rewrite E in E'. destruct (is_noexcept s); discriminate.
Qed.

Lemma construct_room : forall al g p w s c, valid_w w -> growth_ok w g -> exact_room g -> can_ask w s ->
  one_word_per_bit s = true -> construct al g p w s = Ok (Made c) ->
  vcapacity w (snd c) = zlen (asked w s) * w.
Proof.
  intros al g p w s c Vw G X A O E.
  destruct (construct_all al g p w s Vw G A) as [(c' & E' & K & _ & L & Bc)|(n & f & _ & _ & E')].
  - rewrite E in E'. injection E' as <-. destruct (capacity_value w c Vw K) as [Cv _]. rewrite Cv.
    assert (L' : zlen (vwords (fst c)) = zlen (asked w s)) by (destruct s; cbn [one_word_per_bit] in *; congruence).
    rewrite Bc by (intros bs ->; discriminate). rewrite L', X. destruct (Z.eqb_spec (zlen (asked w s)) 0); lia.
  - rewrite E in E'. destruct (is_noexcept s); discriminate.
Qed.

Lemma construct_program : forall al als li p w s q, valid_w w -> growth_ok w (l_growth li) ->
  l_gives_away li = false \/ assigns_none q -> can_ask w s -> careful_pre p w (asked w s) q ->
  (exists c tr c', construct al (l_growth li) p w s = Ok (Made c) /\
     xrun als li p w 0 q c = Ok (tr, c') /\ explains w (asked w s) tr (vbits w (fst c'))) \/
  (exists f, construct al (l_growth li) p w s = Ok (Threw (Refused f))) \/
  construct al (l_growth li) p w s = Ok Terminated /\ moves s.
Proof.
  intros al als li p w s q Vw G D A Pre.
  destruct (construct_ok al (l_growth li) p w s Vw G A) as [(c & E & K & B)|(n & f & _ & _ & [[N E]|[N E]])].
  - left. rewrite <- B in Pre. destruct (fail_client als li p w q 0 c Vw G D K Pre) as (tr & c' & E1 & _ & X).
    exists c, tr, c'. rewrite B in X. auto.
  - right. left. exists f. exact E.
  - right. right. auto.
Qed.
