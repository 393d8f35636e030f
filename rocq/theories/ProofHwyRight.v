(** Which calls of shift_right in a Highway build form a pointer outside the
    array (shift.hpp:320-361). *)
From Coq Require Import ZArith Bool List Lia.
From Coq Require Import ZifyBool.
From Verif Require Import Base WordOps IterModel AlgModel ShiftModel HwyModel Spec SpecHwy SpecPoint
  ProofBase ProofIter ProofWord ProofAlg1 ProofShift ProofHwy.
Import ListNotations.
Open Scope Z_scope.
Ltac Zify.zify_post_hook ::= Z.div_mod_to_equations.

Lemma bind_eq : forall A B (c : M A) (f : A -> M B) m a m',
  c m = Ok (a, m') -> bind c f m = f a m'.
Proof. intros A B c f m a m' E. unfold bind. rewrite E. reflexivity. Qed.

Lemma lift_eq : forall A B (r : res A) (f : A -> M B) m a,
  r = Ok a -> bind (lift r) f m = f a m.
Proof. intros A B r f m a ->. reflexivity. Qed.

Lemma bind_ub : forall A B (c : M A) (f : A -> M B) m k,
  wp c m (fun a m' => f a m' = UB k) -> bind c f m = UB k.
Proof.
  intros A B c f m k H. unfold wp, bind in *.
  destruct (c m) as [[a m']| | | |]; try contradiction. exact H.
Qed.

Lemma bind_ub_now : forall A B (c : M A) (f : A -> M B) m k,
  c m = UB k -> bind c f m = UB k.
Proof. intros A B c f m k E. unfold bind. rewrite E. reflexivity. Qed.

Lemma bind_ub3 : forall A B C D (a : M A) (b : A -> M B) (c : A -> B -> M C)
    (e : A -> B -> C -> M unit) (d : M D) m k,
  bind (let* x := a in let* y := b x in let* v := c x y in e x y v) (fun _ => d) m = UB k ->
  (let* x := a in let* y := b x in let* v := c x y in bind (e x y v) (fun _ => d)) m = UB k.
Proof.
  intros A B C D a b c e d m k H. unfold bind in *.
  destruct (a m) as [[x m1]| | | |]; try exact H.
  destruct (b x m1) as [[y m2]| | | |]; try exact H.
  destruct (c x y m2) as [[z m3]| | | |]; exact H.
Qed.

Lemma none_updated : forall w (m0 m : mem) lo hi g a, updated w m0 m lo hi g ->
  m0 a = None -> m a = None.
Proof.
  intros w m0 m lo hi g a Hu Hn.
  assert (S : same_dom m0 m) by apply Hu.
  pose proof (S a) as X. destruct (m a); [|reflexivity].
  exfalso. apply X in Hn. discriminate.
Qed.

Lemma wp_of_eq : forall A B (c : M A) (f : A -> M B) m a m' (Q : B -> mem -> Prop),
  c m = Ok (a, m') -> wp (f a) m' Q -> wp (bind c f) m Q.
Proof. intros A B c f m a m' Q E H. unfold wp in *. rewrite (bind_eq _ _ _ _ _ _ _ E). exact H. Qed.

(** What follows the stage of the whole words. *)
Definition right_tail (p : policy) (w : Z) (first : iter) (n : Z) (q : iter * iter)
  : M iter :=
  let '(last, middle) := q in
  (if negb (ip first =? ip middle) then
     let! bits := distance w first middle in
     let* word := get_word p w first bits in
     let! dst := isub w last bits in
     write_word p w word dst bits
   else ret tt) ;;
  lift (iadd w first n).

Lemma main_calls : forall p w first last middle n m,
  valid_w w -> valid_it w first -> valid_it w middle ->
  0 <= addr w middle - addr w first <= 2 ^ 62 ->
  ip middle <> 0 -> w <= addr w middle - addr w first ->
  forall words, shift_right_main_with words p w first last middle n m =
    bind (words first last middle (ip middle)) (right_tail p w first n) m.
Proof.
  intros p w first last middle n m Vw Hf Hm Hd H0 Hw words.
  unfold shift_right_main_with.
  destruct (Z.eqb_spec (ip middle) 0) as [E|E]; [contradiction|].
  rewrite (lift_eq _ _ _ _ _ (addr w middle - addr w first))
    by (apply distance_eq; assumption || lia).
  destruct (Z.leb_spec w (addr w middle - addr w first)) as [C|C]; [reflexivity|lia].
Qed.

Lemma main_same : forall p w first last middle n m,
  valid_w w -> valid_it w first -> valid_it w middle ->
  0 <= addr w middle - addr w first <= 2 ^ 62 ->
  ip middle = 0 \/ addr w middle - addr w first < w ->
  forall words1 words2, shift_right_main_with words1 p w first last middle n m =
    shift_right_main_with words2 p w first last middle n m.
Proof.
  intros p w first last middle n m Vw Hf Hm Hd H0 words1 words2.
  unfold shift_right_main_with.
  destruct (Z.eqb_spec (ip middle) 0) as [E|E]; [reflexivity|].
  assert (X : distance w first middle = Ok (addr w middle - addr w first))
    by (apply distance_eq; assumption || lia).
  rewrite !(lift_eq _ _ _ _ _ _ X).
  destruct (Z.leb_spec w (addr w middle - addr w first)) as [C|C]; [lia|reflexivity].
Qed.

Section Right.
Variables (p : policy) (w : Z) (first last : iter) (n : Z) (m : mem).
Hypotheses (Vw : valid_w w) (Hf : valid_it w first) (Hl : valid_it w last)
  (Hwf : wf_mem w m)
  (Hn : 0 < n < addr w last - addr w first) (Hd : addr w last - addr w first <= 2 ^ 62)
  (Hm : mapped w m (addr w first) (addr w last)).

Let E := ib last * w.
Let mid := It ((E - n) / w) ((E - n) mod w).

(** The stage of the whole words is called at most once, with these iterators. *)
Lemma right_calls : (E - n) mod w <> 0 -> w <= E - n - addr w first ->
  exists m1, updated w m m1 E (addr w last) (fun i => bit w m (i - n)) /\
  forall words, shift_right_with words p w first last n m =
    bind (words first (It (ib last) 0) mid (ip mid)) (right_tail p w first n) m1.
Proof.
  intros Ho Hw. pose proof (valid_pos w Vw) as Hwp.
  assert (HL : addr w last = E + ip last) by reflexivity.
  assert (HF : addr w first = ib first * w + ip first) by reflexivity.
  unfold valid_it in Hf, Hl.
  assert (Hmv : valid_it w mid) by (unfold valid_it, mid; cbn; lia).
  assert (Hma : addr w mid = E - n).
  { unfold mid, addr. cbn [ib ip]. rewrite (Z.mul_comm _ w).
    symmetry. apply Z.div_mod. lia. }
  assert (Xd : distance w first last = Ok (addr w last - addr w first))
    by (apply distance_eq; unfold valid_it; assumption || lia).
  assert (Xi : wp (lift (isub w last n)) m
    (fun i m' => m' = m /\ valid_it w i /\ addr w i = addr w last - n)).
  { apply wp_isub; try assumption; try lia. auto. }
  apply wp_exists in Xi. destruct Xi as (i1 & m' & Xi & -> & V1 & A1).
  assert (H1w : one_word first last = false).
  { unfold one_word. destruct (one_word first last) eqn:Q; [|exact Q].
    exfalso. unfold one_word, b2z in Q. destruct (Z.eqb_spec (ip last) 0) as [Q1|Q1].
    - assert (ib last = ib first + 1) by lia. unfold E in *. nia.
    - assert (ib last = ib first) by lia. unfold E in *. nia. }
  destruct (Z.eq_dec (ip last) 0) as [L0|L0].
  - exists m. split.
    { rewrite HL, L0, Z.add_0_r. apply updated_refl; [assumption|]. intros i Hi. lia. }
    intros words. unfold shift_right_with.
    rewrite (lift_eq _ _ _ _ _ _ Xd). rewrite (bind_eq _ _ _ _ _ _ _ Xi).
    destruct (Z.leb_spec n 0) as [C1|C1]; [lia|].
    destruct (Z.leb_spec (addr w last - addr w first) n) as [C2|C2]; [lia|].
    rewrite H1w, L0. cbn [Z.eqb negb].
    assert (X : i1 = mid) by (apply (addr_inj w); try assumption; lia). subst i1.
    replace last with (It (ib last) 0) by (destruct last; cbn in *; congruence).
    apply main_calls; try assumption; cbn [ip mid]; try lia.
  - assert (Xd2 : distance w first i1 = Ok (addr w i1 - addr w first))
      by (apply distance_eq; unfold valid_it in *; assumption || lia).
    assert (Hb : Z.min (ip last) (addr w i1 - addr w first) = ip last) by lia.
    assert (Y : wp (lift (isub w i1 (ip last))) m
      (fun i m' => m' = m /\ valid_it w i /\ addr w i = addr w i1 - ip last)).
    { apply wp_isub; try assumption; try lia. auto. }
    apply wp_exists in Y. destruct Y as (src & m' & Ys & -> & V2 & A2).
    assert (X : src = mid) by (apply (addr_inj w); try assumption; lia). subst src.
    assert (Y : wp (get_word p w mid (ip last)) m (fun v m' => m' = m /\ 0 <= v < 2 ^ w /\
      forall k, 0 <= k < ip last -> Z.testbit v k = bit w m (addr w mid + k))).
    { apply wp_get_word; try assumption; try lia.
      - eapply mapped_sub; [exact Hm|lia|lia].
      - auto. }
    apply wp_exists in Y. destruct Y as (v & m' & Yg & -> & V3 & A3).
    assert (Y : wp (lift (isub w last (ip last))) m
      (fun i m' => m' = m /\ valid_it w i /\ addr w i = addr w last - ip last)).
    { apply wp_isub; try assumption; try lia. auto. }
    apply wp_exists in Y. destruct Y as (dst & m' & Yd & -> & V4 & A4).
    assert (X : dst = It (ib last) 0).
    { apply (addr_inj w); try assumption; try (unfold valid_it; cbn; lia).
      rewrite A4. unfold addr; cbn [ib ip]. lia. }
    subst dst.
    assert (Y : wp (write_word p w v (It (ib last) 0) (ip last)) m (fun _ m1 =>
      updated w m m1 E (addr w last) (fun i => bit w m (i - n)))).
    { apply wp_write_word; try assumption; try lia.
      - eapply mapped_sub; [exact Hm|lia|lia].
      - intros m1 H1. rewrite A4 in H1.
        replace (addr w last - ip last) with E in H1 by lia.
        replace (E + ip last) with (addr w last) in H1 by lia.
        eapply updated_ext; [exact H1|]. intros i Hi. cbv beta.
        rewrite A3 by lia. f_equal. lia. }
    apply wp_exists in Y. destruct Y as ([] & m1 & Yw & Hu).
    exists m1. split; [exact Hu|].
    assert (Zs : lift (isub_assign w i1 (ip last)) m1 = Ok (mid, m1)).
    { unfold lift in *. unfold isub_assign. destruct (isub w i1 (ip last)); try discriminate.
      injection Ys as ->. reflexivity. }
    assert (Zd : lift (isub_assign w last (ip last)) m1 = Ok (It (ib last) 0, m1)).
    { unfold lift in *. unfold isub_assign. destruct (isub w last (ip last)); try discriminate.
      injection Yd as ->. reflexivity. }
    intros words. unfold shift_right_with.
    rewrite (lift_eq _ _ _ _ _ _ Xd). rewrite (bind_eq _ _ _ _ _ _ _ Xi).
    destruct (Z.leb_spec n 0) as [C1|C1]; [lia|].
    destruct (Z.leb_spec (addr w last - addr w first) n) as [C2|C2]; [lia|].
    rewrite H1w. destruct (Z.eqb_spec (ip last) 0) as [C3|C3]; [lia|]. cbn [negb].
    rewrite (lift_eq _ _ _ _ _ _ Xd2). cbv zeta. rewrite Hb.
    rewrite (bind_eq _ _ _ _ _ _ _ Ys), (bind_eq _ _ _ _ _ _ _ Yg),
      (bind_eq _ _ _ _ _ _ _ Yd), (bind_eq _ _ _ _ _ _ _ Yw),
      (bind_eq _ _ _ _ _ _ _ Zs), (bind_eq _ _ _ _ _ _ _ Zd).
    rewrite (ieq_addr w) by (assumption || lia).
    destruct (Z.eqb_spec (addr w mid) (addr w first)) as [C4|C4]; [lia|].
    apply main_calls; try assumption; cbn [ip mid]; try lia.
Qed.

(** Otherwise it is not called. *)
Lemma right_same : (E - n) mod w = 0 \/ E - n - addr w first < w ->
  forall words1 words2, shift_right_with words1 p w first last n m =
    shift_right_with words2 p w first last n m.
Proof.
  intros Ho words1 words2. pose proof (valid_pos w Vw) as Hwp.
  assert (HL : addr w last = E + ip last) by reflexivity.
  assert (HF : addr w first = ib first * w + ip first) by reflexivity.
  unfold valid_it in Hf, Hl.
  assert (Xd : distance w first last = Ok (addr w last - addr w first))
    by (apply distance_eq; unfold valid_it; assumption || lia).
  assert (Xi : wp (lift (isub w last n)) m
    (fun i m' => m' = m /\ valid_it w i /\ addr w i = addr w last - n)).
  { apply wp_isub; try assumption; try lia. auto. }
  apply wp_exists in Xi. destruct Xi as (i1 & m' & Xi & -> & V1 & A1).
  unfold shift_right_with.
  rewrite !(lift_eq _ _ _ _ _ _ Xd). rewrite !(bind_eq _ _ _ _ _ _ _ Xi).
  destruct (Z.leb_spec n 0) as [C1|C1]; [reflexivity|].
  destruct (Z.leb_spec (addr w last - addr w first) n) as [C2|C2]; [reflexivity|].
  destruct (one_word first last); [reflexivity|].
  assert (Hmid : forall i, valid_it w i -> addr w i = E - n -> ip i = (E - n) mod w).
  { intros i Vi Ai. unfold addr in Ai. unfold valid_it in Vi.
    apply (Z.mod_unique_pos _ _ (ib i)); lia. }
  destruct (Z.eqb_spec (ip last) 0) as [L0|L0]; cbn [negb].
  - assert (Hc : ip i1 = 0 \/ addr w i1 - addr w first < w).
    { destruct Ho as [Ho|Ho]; [left; rewrite Hmid; try assumption; lia|right; lia]. }
    apply main_same; try assumption; lia.
  - assert (Xd2 : distance w first i1 = Ok (addr w i1 - addr w first))
      by (apply distance_eq; unfold valid_it in *; assumption || lia).
    rewrite !(lift_eq _ _ _ _ _ _ Xd2). cbv zeta.
    set (bits := Z.min (ip last) (addr w i1 - addr w first)).
    assert (Y : wp (lift (isub w i1 bits)) m
      (fun i m' => m' = m /\ valid_it w i /\ addr w i = addr w i1 - bits)).
    { apply wp_isub; try assumption; try lia. auto. }
    apply wp_exists in Y. destruct Y as (src & m' & Ys & -> & V2 & A2).
    rewrite !(bind_eq _ _ _ _ _ _ _ Ys).
    assert (Y : wp (get_word p w src bits) m (fun v m' => m' = m /\ 0 <= v < 2 ^ w)).
    { apply wp_get_word; try assumption; try lia.
      - eapply mapped_sub; [exact Hm|lia|lia].
      - auto. }
    apply wp_exists in Y. destruct Y as (v & m' & Yg & -> & V3).
    rewrite !(bind_eq _ _ _ _ _ _ _ Yg).
    assert (Y : wp (lift (isub w last bits)) m
      (fun i m' => m' = m /\ valid_it w i /\ addr w i = addr w last - bits)).
    { apply wp_isub; try assumption; try lia. auto. }
    apply wp_exists in Y. destruct Y as (dst & m' & Yd & -> & V4 & A4).
    rewrite !(bind_eq _ _ _ _ _ _ _ Yd).
    assert (Y : wp (write_word p w v dst bits) m (fun _ m1 => True)).
    { apply wp_write_word; try assumption; try lia.
      eapply mapped_sub; [exact Hm|lia|lia]. }
    apply wp_exists in Y. destruct Y as ([] & m1 & Yw & _).
    rewrite !(bind_eq _ _ _ _ _ _ _ Yw).
    assert (Zs : lift (isub_assign w i1 bits) m1 = Ok (src, m1)).
    { unfold lift in *. unfold isub_assign. destruct (isub w i1 bits); try discriminate.
      injection Ys as ->. reflexivity. }
    assert (Zd : lift (isub_assign w last bits) m1 = Ok (dst, m1)).
    { unfold lift in *. unfold isub_assign. destruct (isub w last bits); try discriminate.
      injection Yd as ->. reflexivity. }
    rewrite !(bind_eq _ _ _ _ _ _ _ Zs), !(bind_eq _ _ _ _ _ _ _ Zd).
    rewrite (ieq_addr w) by (assumption || lia).
    destruct (Z.eqb_spec (addr w src) (addr w first)) as [C4|C4]; [reflexivity|].
    assert (Hc : ip src = 0 \/ addr w src - addr w first < w).
    { destruct Ho as [Ho|Ho]; [left; rewrite Hmid; try assumption; lia|right; lia]. }
    apply main_same; try assumption; lia.
Qed.
End Right.

(** The loop that looks for a multiple of 64 bytes, all pointers in order. *)
Lemma wp_sr_align_all : forall p h w fuel fb lb mb off m0 m L n
    (Q : iter * iter -> mem -> Prop),
  valid_w w -> vector_fits h w -> 0 < off < w -> 0 < n ->
  (forall a, looked_at h w fb mb lb a -> may_point p m0 a) ->
  mb * w + off = lb * w - n -> lb * w <= L ->
  mb - fb - 1 <= Z.of_nat fuel -> fb < mb ->
  (forall a, fb <= a < lb -> m0 a <> None) ->
  updated w m0 m (lb * w) L (fun i => bit w m0 (i - n)) ->
  (forall k m', 0 <= k -> fb < mb - k ->
     mb - k - 1 <= fb \/ byte_addr h w (lb - k - lanes h) mod 64 = 0 ->
     updated w m0 m' ((lb - k) * w) L (fun i => bit w m0 (i - n)) ->
     Q (It (lb - k) 0, It (mb - k) off) m') ->
  wp (sr_align p h w fuel fb (It lb 0) (It mb off) off) m Q.
Proof.
  intros p h w fuel. induction fuel as [|fuel IH];
    intros fb lb mb off m0 m L n Q Hw Hfit Ho Hn Hroom He HL Hfu Hl Hm Hu HQ;
    pose proof (valid_pos w Hw) as Hwp; pose proof (proj1 Hfit) as Hla;
    cbn [sr_align ib];
    destruct (Z.ltb_spec fb (mb - 1)) as [E|E].
  - lia.
  - replace (It lb 0, It mb off) with (It (lb - 0) 0, It (mb - 0) off)
      by (rewrite !Z.sub_0_r; reflexivity).
    apply wp_ret, HQ; try lia. rewrite Z.sub_0_r. exact Hu.
  - assert (Hlm : mb < lb) by nia.
    assert (Hp : may_point p m (lb - lanes h)).
    { assert (Hp : may_point p m0 (lb - lanes h)).
      { apply Hroom. exists 0. split; [lia|]. split; [lia|]. split; [lia|]. intros i Hi. lia. }
      assert (Hdom : forall b, m0 b <> None -> m b <> None).
      { intros b Hb. eapply dom_updated; [exact Hu|exact Hb]. }
      destruct p; cbn in *; try exact I; destruct Hp as [Hp|Hp]; auto. }
    assert (Ea : is_aligned p h w (lb - lanes h) m =
      Ok (byte_addr h w (lb - lanes h) mod 64 =? 0, m)).
    { unfold is_aligned. destruct p; [| |reflexivity]; cbn in Hp;
        destruct (m (lb - lanes h)); try reflexivity;
        destruct (m (lb - lanes h - 1)); try reflexivity; destruct Hp; congruence. }
    apply (wp_of_eq _ _ _ _ _ _ _ _ Ea).
    destruct (Z.eqb_spec (byte_addr h w (lb - lanes h) mod 64) 0) as [Ez|Ez].
    { replace (It lb 0, It mb off) with (It (lb - 0) 0, It (mb - 0) off)
        by (rewrite !Z.sub_0_r; reflexivity).
      apply wp_ret, HQ; try lia; [|rewrite Z.sub_0_r; exact Hu].
      right. rewrite Z.sub_0_r. exact Ez. }
    apply (wp_assoc3 _ _ _ _ (load (mb - 1)) (fun _ => load mb)
      (fun x y => lift (shrd p w x y off)) (fun _ _ v => store (lb - 1) v)).
    replace (load mb) with (load (mb - 1 + 1)) by (f_equal; lia).
    apply wp_bind, (wp_shift_right_word p w (lb - 1) (mb - 1) off m0 m L n);
      try assumption; try lia; try (apply Hm; lia).
    { replace (lb - 1 + 1) with lb by lia. exact Hu. }
    intros m1 H1.
    apply wp_bind, (wp_sub_words w lb 0 1); try assumption; try lia.
    apply wp_bind, (wp_sub_words w mb off 1); try assumption; try lia.
    apply (IH fb (lb - 1) (mb - 1) off m0 m1 L n); try assumption; try lia.
    + intros a (j & J1 & J2 & J3 & J4). apply Hroom. exists (j + 1).
      split; [lia|]. split; [lia|]. split; [lia|]. intros i Hi.
      destruct (Z.eq_dec i 0) as [->|Hi0]; [rewrite Z.sub_0_r; exact Ez|].
      replace (lb - i - lanes h) with (lb - 1 - (i - 1) - lanes h) by lia.
      apply J4. lia.
    + intros a Ha. apply Hm. lia.
    + intros k m' A1 A2 A3 A4. replace (lb - 1 - k) with (lb - (k + 1)) in * by lia.
      replace (mb - 1 - k) with (mb - (k + 1)) in * by lia. apply HQ; try assumption; lia.
  - replace (It lb 0, It mb off) with (It (lb - 0) 0, It (mb - 0) off)
      by (rewrite !Z.sub_0_r; reflexivity).
    apply wp_ret, HQ; try lia. rewrite Z.sub_0_r. exact Hu.
Qed.

(** One of them not in order. *)
Lemma sr_align_ub : forall p h w j fuel fb lb mb off m0 m L n,
  p = Strict17 \/ p = Strict20 ->
  valid_w w -> vector_fits h w -> 0 < off < w -> 0 < n ->
  mb * w + off = lb * w - n -> lb * w <= L ->
  mb - fb - 1 <= Z.of_nat fuel -> fb < mb - Z.of_nat j - 1 ->
  (forall a, fb <= a < lb -> m0 a <> None) ->
  updated w m0 m (lb * w) L (fun i => bit w m0 (i - n)) ->
  (forall i, 0 <= i < Z.of_nat j -> byte_addr h w (lb - i - lanes h) mod 64 <> 0) ->
  m0 (lb - Z.of_nat j - lanes h) = None -> m0 (lb - Z.of_nat j - lanes h - 1) = None ->
  sr_align p h w fuel fb (It lb 0) (It mb off) off m = UB OutOfBounds.
Proof.
  intros p h w j. induction j as [|j IH];
    intros fuel fb lb mb off m0 m L n Hp Vw Hfit Ho Hn He HL Hfu Hl Hm Hu Hna N1 N2;
    pose proof (valid_pos w Vw) as Hwp; pose proof (proj1 Hfit) as Hla;
    (destruct fuel as [|fuel]; [lia|]); cbn [sr_align ib];
    (destruct (Z.ltb_spec fb (mb - 1)) as [E|E]; [|lia]).
  - apply bind_ub_now. cbn [Z.of_nat] in N1, N2. rewrite Z.sub_0_r in N1, N2.
    assert (M1 : m (lb - lanes h) = None)
      by (apply (none_updated _ _ _ _ _ _ _ Hu), N1).
    assert (M2 : m (lb - lanes h - 1) = None)
      by (apply (none_updated _ _ _ _ _ _ _ Hu), N2).
    unfold is_aligned. rewrite M1, M2. destruct Hp as [-> | ->]; reflexivity.
  - assert (Hlm : mb < lb) by nia.
    assert (Hz : byte_addr h w (lb - lanes h) mod 64 <> 0).
    { specialize (Hna 0 ltac:(lia)). rewrite Z.sub_0_r in Hna. exact Hna. }
    destruct (is_aligned p h w (lb - lanes h) m) as [[al m']|k| | |] eqn:Ea.
    + assert (Eal : al = false /\ m' = m).
      { unfold is_aligned in Ea. destruct p, (m (lb - lanes h)), (m (lb - lanes h - 1));
          inversion Ea; split; lia || reflexivity. }
      destruct Eal as [-> ->]. rewrite (bind_eq _ _ _ _ _ _ _ Ea).
      apply (bind_ub3 _ _ _ _ (load (mb - 1)) (fun _ => load mb)
        (fun x y => lift (shrd p w x y off)) (fun _ _ v => store (lb - 1) v)).
      replace (load mb) with (load (mb - 1 + 1)) by (f_equal; lia).
      apply bind_ub, (wp_shift_right_word p w (lb - 1) (mb - 1) off m0 m L n);
        try assumption; try lia; try (apply Hm; lia).
      { replace (lb - 1 + 1) with lb by lia. exact Hu. }
      intros m1 H1.
      apply bind_ub, (wp_sub_words w lb 0 1); try assumption; try lia.
      apply bind_ub, (wp_sub_words w mb off 1); try assumption; try lia.
      apply (IH fuel fb (lb - 1) (mb - 1) off m0 m1 L n); try assumption; try lia.
      * intros a Ha. apply Hm. lia.
      * intros i Hi. replace (lb - 1 - i - lanes h) with (lb - (i + 1) - lanes h) by lia.
        apply Hna. lia.
      * rewrite <- N1. f_equal. lia.
      * rewrite <- N2. f_equal. lia.
    + apply bind_ub_now. rewrite Ea. unfold is_aligned in Ea.
      destruct p, (m (lb - lanes h)), (m (lb - lanes h - 1)); inversion Ea; reflexivity.
    + exfalso. unfold is_aligned in Ea.
      destruct p, (m (lb - lanes h)), (m (lb - lanes h - 1)); inversion Ea.
    + exfalso. unfold is_aligned in Ea.
      destruct p, (m (lb - lanes h)), (m (lb - lanes h - 1)); inversion Ea.
    + exfalso. unfold is_aligned in Ea.
      destruct p, (m (lb - lanes h)), (m (lb - lanes h - 1)); inversion Ea.
Qed.

(** The call with the pointers in order. *)
Lemma sr_words_all : forall p h w m0 first lb mb off m L n,
  valid_w w -> vector_fits h w ->
  (forall a, looked_at h w (ib first) mb lb a -> may_point p m0 a) ->
  forall Q : iter * iter -> mem -> Prop, let F := addr w first in
  valid_it w first -> wf_mem w m0 -> 0 < off < w -> 0 < n ->
  mb * w + off = lb * w - n -> w <= mb * w + off - F ->
  lb * w <= L -> lb - ib first <= 2 ^ 60 ->
  (forall a, ib first <= a < lb -> m0 a <> None) ->
  updated w m0 m (lb * w) L (fun i => bit w m0 (i - n)) ->
  (forall l1 mi1 m1, valid_it w l1 -> valid_it w mi1 -> addr w mi1 = addr w l1 - n ->
     ip mi1 = off -> F <= addr w mi1 < F + w -> addr w l1 <= L ->
     updated w m0 m1 (addr w l1) L (fun i => bit w m0 (i - n)) -> Q (l1, mi1) m1) ->
  wp (sr_words_hwy p h w first (It lb 0) (It mb off) off) m Q.
Proof.
  intros p h w m0 first lb mb off m L n Hw Hfit Hroom Q F Hf Hwf Ho Hn Ha HF HL Hsz
    Hm Hu HQ.
  pose proof (valid_pos w Hw) as Hwp.
  assert (HFe : F = ib first * w + ip first) by reflexivity.
  unfold valid_it in Hf.
  assert (Hb1 : ib first < mb) by nia.
  assert (Hb2 : mb < lb) by nia.
  unfold sr_words_hwy. cbn [ib].
  apply wp_bind, (wp_sr_align_all p h w _ (ib first) lb mb off m0 m L n);
    try assumption; try lia.
  intros k1 m1 A1 A2 A3 A4. pose proof (mul_mono w (lb - k1) lb ltac:(lia) ltac:(lia)).
  apply wp_bind, (wp_sr_vectors h w _ (ib first) (lb - k1) (mb - k1) off m0 m1 L n);
    try assumption; try lia.
  { destruct A3 as [A3|A3]; [left; exact A3|right; apply vector_aligned_64; assumption]. }
  { intros a Hx. apply Hm. lia. }
  intros k2 m2 B1 B2 B3.
  set (k := k1 + k2). replace (lb - k1 - k2) with (lb - k) in * by (unfold k; lia).
  replace (mb - k1 - k2) with (mb - k) in * by (unfold k; lia).
  assert (Hk : 0 <= k) by (unfold k; lia). clearbody k.
  assert (Hal' : addr w (It (lb - k) 0) = (lb - k) * w) by (unfold addr; cbn; lia).
  assert (Ham' : addr w (It (mb - k) off) = (mb - k) * w + off) by reflexivity.
  pose proof (mul_mono w (lb - k) lb ltac:(lia) ltac:(lia)).
  assert (Hke : (lb - k) * w - (mb - k) * w = lb * w - mb * w) by ring.
  apply (wp_shift_right_words p w m0 first (It (lb - k) 0) (It (mb - k) off) m2 L n);
    rewrite ?Hal', ?Ham'; cbn [ib ip]; try assumption; try reflexivity; try lia.
  intros a Hx. apply Hm. lia.
Qed.

Lemma right_range : forall w first last (m : mem), valid_w w -> valid_it w first ->
  valid_it w last -> mapped w m (addr w first) (addr w last) ->
  forall a, ib first <= a < ib last -> m a <> None.
Proof.
  intros w first last m Vw Hf Hl Hm a Ha. pose proof (valid_pos w Vw) as Hwp.
  unfold valid_it in *.
  pose proof (mul_mono w (a + 1) (ib last) ltac:(lia) ltac:(lia)) as H1.
  pose proof (mul_mono w (ib first) a ltac:(lia) ltac:(lia)) as H2.
  apply (mapped_word w m (addr w first) (addr w last)); try assumption; unfold addr; lia.
Qed.

Lemma shift_right_all : forall p h w m first last n,
  valid_w w -> vector_fits h w -> wf_mem w m -> good_range w m first last ->
  0 < n < addr w last - addr w first ->
  ip first <> 0 \/ ip last <> 0 \/ ib last - ib first <> 1 \/ full_blend_defined p w ->
  (n mod w <> 0 -> forall a,
     looked_at h w (ib first) ((ib last * w - n) / w) (ib last) a -> may_point p m a) ->
  exists r m', shift_right_hwy p h w first last n m = Ok (r, m') /\ valid_it w r /\
    addr w r = addr w first + n /\
    shifted_right w m m' (addr w first) (addr w last) n.
Proof.
  intros p h w m first last n Vw Hfit Hwf (Hf & Hl & Hd & Hm) Hn Hg Hroom.
  pose proof (valid_pos w Vw) as Hwp. unfold max_bits in Hd. unfold shift_right_hwy.
  set (E := ib last * w) in *.
  assert (HE : addr w last = E + ip last) by reflexivity.
  assert (HF : addr w first = ib first * w + ip first) by reflexivity.
  assert (Hscal : exists r m', shift_right_with (shift_right_words p w) p w first last n m
      = Ok (r, m') /\ valid_it w r /\ addr w r = addr w first + n /\
      shifted_right w m m' (addr w first) (addr w last) n).
  { apply wp_exists, wp_shift_right_with; try assumption; try lia; [|auto].
    apply shifts_right_words_scalar, Vw. }
  assert (Hmod : n mod w = 0 -> (E - n) mod w = 0).
  { intros H0. unfold E. rewrite Zminus_mod, Z.mod_mul, H0 by lia. reflexivity. }
  destruct (Z.eq_dec ((E - n) mod w) 0) as [C1|C1].
  { rewrite (right_same p w first last n m Vw Hf Hl Hwf Hn ltac:(lia) Hm
      ltac:(left; exact C1) _ (shift_right_words p w)). exact Hscal. }
  destruct (Z.lt_ge_cases (E - n - addr w first) w) as [C2|C2].
  { rewrite (right_same p w first last n m Vw Hf Hl Hwf Hn ltac:(lia) Hm
      ltac:(right; exact C2) _ (shift_right_words p w)). exact Hscal. }
  clear Hscal. specialize (Hroom (fun H0 => C1 (Hmod H0))).
  destruct (right_calls p w first last n m Vw Hf Hl Hwf Hn ltac:(lia) Hm C1 ltac:(lia))
    as (m1 & Hu & Hc).
  set (mb := (E - n) / w) in *. set (off := (E - n) mod w) in *.
  fold E in Hu, Hc. fold mb off in Hc. cbn [ip] in Hc.
  assert (Hmo : mb * w + off = E - n)
    by (unfold mb, off; rewrite (Z.mul_comm _ w); symmetry; apply Z.div_mod; lia).
  assert (Ho : 0 <= off < w) by (apply Z.mod_pos_bound; lia).
  set (words := fun f l mi (o : Z) =>
    if (ib l =? ib last) && (ib mi =? mb) && (ip mi =? off) && (o =? off) then
      sr_words_hwy p h w f l mi o
    else shift_right_words p w f l mi o).
  assert (Hs : shift_right_with (sr_words_hwy p h w) p w first last n m =
               shift_right_with words p w first last n m).
  { rewrite !Hc. unfold words. cbn [ib ip]. rewrite !Z.eqb_refl. reflexivity. }
  rewrite Hs. apply wp_exists, wp_shift_right_with; try assumption; try lia; [|auto].
  intros last' middle' m' L n' Q F Hf' Hwf' Hl0 Hmi Hn' Ham HFm HL Hsz Hma Hu' HQ.
  unfold words.
  destruct ((ib last' =? ib last) && (ib middle' =? mb) && (ip middle' =? off) &&
    (ip middle' =? off)) eqn:Q1.
  - destruct last' as [lb' lp']. destruct middle' as [mb' off']. cbn [ib ip] in *.
    assert (X : lb' = ib last /\ mb' = mb /\ off' = off) by lia.
    destruct X as (-> & -> & ->). subst lp'.
    assert (Aa : addr w (It (ib last) 0) = ib last * w) by (unfold addr; cbn; lia).
    assert (Ab : addr w (It mb off) = mb * w + off) by reflexivity.
    rewrite Aa, Ab in *.
    apply (sr_words_all p h w m first (ib last) mb off m' L n'); try assumption.
  - apply (shifts_right_words_scalar p w m first Vw last' middle' m' L n'); assumption.
Qed.

Lemma shift_right_pointer : forall p h w m first last n a,
  p = Strict17 \/ p = Strict20 ->
  valid_w w -> vector_fits h w -> wf_mem w m -> good_range w m first last ->
  0 < n < addr w last - addr w first -> n mod w <> 0 ->
  looked_at h w (ib first) ((ib last * w - n) / w) (ib last) a ->
  m a = None -> m (a - 1) = None ->
  shift_right_hwy p h w first last n m = UB OutOfBounds.
Proof.
  intros p h w m first last n a Hp Vw Hfit Hwf (Hf & Hl & Hd & Hm) Hn Hnm
    (j & J1 & -> & J3 & J4) N1 N2.
  pose proof (valid_pos w Vw) as Hwp. unfold max_bits in Hd. unfold shift_right_hwy.
  set (E := ib last * w) in *.
  assert (HE : addr w last = E + ip last) by reflexivity.
  assert (C1 : (E - n) mod w <> 0).
  { intros H0. apply Hnm. replace n with (E - (E - n)) by lia.
    unfold E. unfold E in H0. rewrite Zminus_mod, Z.mod_mul, H0 by lia. reflexivity. }
  assert (Hw : addr w first + w <= E - n).
  { pose proof (Z.div_mod (E - n) w ltac:(lia)) as Dm.
    pose proof (Z.mod_pos_bound (E - n) w ltac:(lia)) as Db.
    pose proof (mul_mono w (ib first + 2) ((E - n) / w) ltac:(lia) ltac:(lia)).
    unfold valid_it in Hf. unfold addr. lia. }
  destruct (right_calls p w first last n m Vw Hf Hl Hwf Hn ltac:(lia) Hm C1 ltac:(lia))
    as (m1 & Hu & Hc).
  rewrite Hc. clear Hc. fold E in Hu |- *.
  set (mb := (E - n) / w) in *. set (off := (E - n) mod w) in *. cbn [ip].
  assert (Hmo : mb * w + off = E - n)
    by (unfold mb, off; rewrite (Z.mul_comm _ w); symmetry; apply Z.div_mod; lia).
  assert (Ho : 0 <= off < w) by (apply Z.mod_pos_bound; lia).
  apply bind_ub_now. unfold sr_words_hwy. cbn [ib]. apply bind_ub_now.
  apply (sr_align_ub p h w (Z.to_nat j) _ (ib first) (ib last) mb off m m1 (addr w last) n);
    try assumption; try lia; rewrite ?Z2Nat.id by lia; try assumption.
  - unfold valid_it in Hl. lia.
  - apply (right_range w first last); assumption.
Qed.

Lemma shift_right_inside : forall p h w m first last n,
  valid_w w -> vector_fits h w -> wf_mem w m -> good_range w m first last ->
  0 < n < addr w last - addr w first ->
  (ip first <> 0 \/ ip last <> 0 \/ ib last - ib first <> 1 \/ full_blend_defined p w) ->
  (n mod w <> 0 -> forall a, looked_at h w (ib first) ((ib last * w - n) / w) (ib last) a ->
     may_be_formed m a) ->
  exists r m', shift_right_hwy p h w first last n m = Ok (r, m') /\ valid_it w r /\
    addr w r = addr w first + n /\ wf_mem w m' /\ same_dom m m' /\
    (forall i, addr w first + n <= i < addr w last -> bit w m' i = bit w m (i - n)) /\
    (forall i, i < addr w first \/ addr w last <= i -> bit w m' i = bit w m i).
Proof.
  intros p h w m first last n Vw Hfit Hwf Hr Hn Hd Hm.
  destruct (shift_right_all p h w m first last n Vw Hfit Hwf Hr Hn Hd) as (r & m' & E & V & A & S).
  { intros C a L. specialize (Hm C a L). unfold may_point, may_be_formed in *.
    destruct p; (exact I || exact Hm). }
  destruct S as (g & H3 & H4 & _).
  exists r, m'. split; [exact E|]. split; [exact V|]. split; [exact A|].
  split; [eapply updated_wf, H3|]. split; [apply H3|]. split.
  - intros i Hi. rewrite (updated_in _ _ _ _ _ _ _ H3) by lia. apply H4, Hi.
  - intros i Hi. apply (updated_out _ _ _ _ _ _ _ H3 Hi).
Qed.

Lemma shift_right_exact : forall p h w m first last n, p = Strict17 \/ p = Strict20 ->
  valid_w w -> vector_fits h w -> wf_mem w m -> good_range w m first last ->
  0 < n < addr w last - addr w first ->
  (ip first <> 0 \/ ip last <> 0 \/ ib last - ib first <> 1 \/ full_blend_defined p w) ->
  shift_right_hwy p h w first last n m = UB OutOfBounds <->
  n mod w <> 0 /\
  ~ (forall a, looked_at h w (ib first) ((ib last * w - n) / w) (ib last) a -> may_be_formed m a).
Proof.
  intros p h w m first last n Hp Vw Hfit Hwf Hr Hn Hd.
  pose proof (shift_right_inside p h w m first last n Vw Hfit Hwf Hr Hn Hd) as S. split.
  - intros E. split.
    + intros Z. destruct S as (r & m' & E' & _); [intros C; contradiction|congruence].
    + intros K. destruct S as (r & m' & E' & _); [intros _; exact K|congruence].
  - intros [Z K].
    assert (D : shift_right_hwy p h w first last n m = UB OutOfBounds \/
      shift_right_hwy p h w first last n m <> UB OutOfBounds).
    { destruct (shift_right_hwy p h w first last n m) as [x|k| | |]; try (right; discriminate).
      destruct k; try (right; discriminate). left; reflexivity. }
    destruct D as [D|D]; [exact D|]. exfalso. apply K. intros a L. unfold may_be_formed.
    destruct (m a) eqn:E1; [left; discriminate|].
    destruct (m (a - 1)) eqn:E2; [right; discriminate|].
    exfalso. apply D. apply (shift_right_pointer p h w m first last n a); assumption.
Qed.

(** The first pointer. *)
Lemma looked_at_first : forall h w first middle last, first + 1 < middle ->
  looked_at h w first middle last (last - lanes h).
Proof.
  intros h w first middle last H. exists 0. split; [lia|]. split; [lia|]. split; [lia|].
  intros i Hi. lia.
Qed.

Lemma shift_right_short_array : forall p h w m first last n, p = Strict17 \/ p = Strict20 ->
  valid_w w -> vector_fits h w -> wf_mem w m -> good_range w m first last ->
  0 < n < addr w last - addr w first -> n mod w <> 0 ->
  n + (ib first + 2) * w <= ib last * w ->
  (forall a, a <= ib last - lanes h -> m a = None) ->
  shift_right_hwy p h w first last n m = UB OutOfBounds.
Proof.
  intros p h w m first last n Hp Vw Hfit Hwf Hr Hn Hm Hlen Ha. pose proof (valid_pos w Vw) as Pw.
  apply (shift_right_pointer p h w m first last n (ib last - lanes h)); try assumption.
  - apply looked_at_first.
    apply Z.lt_le_trans with (ib first + 2); [lia|]. apply Z.div_le_lower_bound; lia.
  - apply Ha. lia.
  - apply Ha. lia.
Qed.
