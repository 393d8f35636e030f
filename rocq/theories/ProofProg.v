(** Programs that call the algorithms: every operation follows the arrays. *)
From Coq Require Import ZArith Bool List Lia ZifyBool.
From Verif Require Import Base WordOps IterModel RefModel PopcntModel AlgModel TransformModel
  ShiftModel SwapModel ReverseModel RotateModel Spec SpecRef SpecVec SpecClient GenericModel
  SpecGeneric ProgModel SpecProg ProofBase ProofIter ProofRange ProofShift ProofTransform ProofSwap
  ProofReverse ProofRotate ProofCount ProofDetails ProofVec ProofVec2 ProofClient ProofClient2
  ProofGeneric.
Import ListNotations.
Open Scope Z_scope.
Ltac Zify.zify_post_hook ::= idtac.

(** ** The function objects *)
Lemma on_words_bit : forall w f x k, 0 <= w -> 0 <= k < w ->
  Z.testbit (on_words w f x) k = f (Z.testbit x k).
Proof.
  intros w f x k Hw Hk. unfold on_words. rewrite Z.lor_spec.
  assert (E : Z.testbit (wrap w (Z.lnot x)) k = negb (Z.testbit x k)).
  { unfold wrap. rewrite Z.mod_pow2_bits_low by lia. apply Z.lnot_spec. lia. }
  destruct (f true) eqn:F1, (f false) eqn:F0; rewrite ?E, ?Z.bits_0;
    destruct (Z.testbit x k); rewrite ?F1, ?F0; reflexivity.
Qed.

Lemma lor_range : forall w x y, 0 <= w -> 0 <= x < 2 ^ w -> 0 <= y < 2 ^ w -> 0 <= Z.lor x y < 2 ^ w.
Proof.
  intros w x y Hw Hx Hy. assert (0 <= Z.lor x y) by (apply Z.lor_nonneg; lia). split; [assumption|].
  rewrite <- (Z.mod_small x (2 ^ w)), <- (Z.mod_small y (2 ^ w)) by lia.
  rewrite <- !Z.land_ones by lia. rewrite <- Z.land_lor_distr_l, Z.land_ones by lia.
  apply Z.mod_pos_bound. lia.
Qed.

Lemma land_range : forall w x y, 0 <= w -> 0 <= x < 2 ^ w -> 0 <= y -> 0 <= Z.land x y < 2 ^ w.
Proof.
  intros w x y Hw Hx Hy. assert (0 <= Z.land x y) by (apply Z.land_nonneg; lia). split; [assumption|].
  rewrite <- (Z.mod_small x (2 ^ w)) by lia. rewrite <- Z.land_ones by lia.
  rewrite <- Z.land_assoc, (Z.land_comm (Z.ones w)), Z.land_assoc, Z.land_ones by lia.
  apply Z.mod_pos_bound. lia.
Qed.

Lemma on_words_range : forall w f x, 0 <= w -> 0 <= x < 2 ^ w -> 0 <= on_words w f x < 2 ^ w.
Proof.
  intros w f x Hw Hx. unfold on_words.
  assert (0 <= wrap w (Z.lnot x) < 2 ^ w) by (unfold wrap; apply Z.mod_pos_bound; lia).
  apply lor_range; [lia| |]; [destruct (f true)|destruct (f false)]; lia.
Qed.

Lemma on_words2_bit : forall w f x y k, 0 <= w -> 0 <= k < w ->
  Z.testbit (on_words2 w f x y) k = f (Z.testbit x k) (Z.testbit y k).
Proof.
  intros w f x y k Hw Hk. unfold on_words2. rewrite Z.lor_spec, !Z.land_spec, !on_words_bit by lia.
  assert (E : Z.testbit (wrap w (Z.lnot x)) k = negb (Z.testbit x k)).
  { unfold wrap. rewrite Z.mod_pow2_bits_low by lia. apply Z.lnot_spec. lia. }
  rewrite E. destruct (Z.testbit x k); cbn [andb orb negb]; rewrite ?orb_false_r; reflexivity.
Qed.

Lemma on_words2_range : forall w f x y, 0 <= w -> 0 <= x < 2 ^ w -> 0 <= y < 2 ^ w ->
  0 <= on_words2 w f x y < 2 ^ w.
Proof.
  intros w f x y Hw Hx Hy. unfold on_words2.
  assert (0 <= wrap w (Z.lnot x) < 2 ^ w) by (unfold wrap; apply Z.mod_pos_bound; lia).
  pose proof (on_words_range w (f true) y Hw Hy). pose proof (on_words_range w (f false) y Hw Hy).
  apply lor_range; [lia| |]; apply land_range; lia.
Qed.

(** ** Arrays after an overwrite *)
Lemma size_overwrite : forall arr k i l, 0 <= i -> i + zlen l <= size arr k ->
  forall n, size (overwrite arr (k, i) l) n = size arr n.
Proof.
  intros arr k i l H1 H2 n. unfold size, overwrite. cbn [fst snd]. unfold put.
  destruct (Nat.eqb_spec n k) as [->|N]; [|reflexivity].
  pose proof (zlen_over i l (arr k) H1 H2) as Z. unfold zlen in Z. exact Z.
Qed.

Lemma elem_overwrite : forall arr k i l, 0 <= i -> i + zlen l <= size arr k ->
  forall n j, 0 <= j -> elem (overwrite arr (k, i) l) (n, j) =
    if Nat.eqb n k && inr i (i + zlen l) j then get_at (j - i) l else elem arr (n, j).
Proof.
  intros arr k i l H1 H2 n j Hj. unfold elem, overwrite. cbn [fst snd]. unfold put.
  destruct (Nat.eqb_spec n k) as [->|N]; [|reflexivity]. cbn [andb].
  exact (get_over i l (arr k) j H1 H2 Hj).
Qed.

Section Prog.
Variables (w : Z) (lo : nat -> Z).
Hypothesis Vw : valid_w w.

(** The bits of a slice. *)
Lemma slice_get : forall m arr k i j n, laid_out w m lo arr -> 0 <= i -> j <= size arr k ->
  0 <= n < j - i -> get_at n (slice i j (arr k)) = bit w m (lo k + i + n).
Proof.
  intros m arr k i j n (L & _) Hi Hj Hn. destruct (L k) as (_ & _ & B).
  replace (lo k + i + n) with (lo k + (i + n)) by ring. rewrite B by lia.
  unfold slice. rewrite get_firstn by lia. rewrite get_skipn by lia. reflexivity.
Qed.

Lemma zlen_slice' : forall arr k i j, 0 <= i <= j -> j <= size arr k -> zlen (slice i j (arr k)) = j - i.
Proof.
  intros arr k i j Hi Hj. unfold slice. unfold size in Hj. fold (zlen (arr k)) in Hj.
  rewrite zlen_firstn; [lia|]. rewrite zlen_skipn; lia.
Qed.

Lemma lay_over : forall m m' arr k i l, laid_out w m lo arr -> 0 <= i -> i + zlen l <= size arr k ->
  wf_mem w m' -> same_dom m m' ->
  (forall n, 0 <= n < zlen l -> bit w m' (lo k + i + n) = get_at n l) ->
  (forall a, ~ lo k + i <= a < lo k + i + zlen l -> bit w m' a = bit w m a) ->
  follows w lo m m' arr (overwrite arr (k, i) l).
Proof.
  intros m m' arr k i l L Hi Hl W S B1 B2.
  split; [exact W|]. split; [exact S|]. split; [apply size_overwrite; assumption|]. split.
  - eapply lay_change; [exact L|exact S|apply size_overwrite; assumption|].
    intros n j Hj. rewrite elem_overwrite by lia. destruct L as (L & D). unfold inr.
    destruct (Nat.eqb_spec n k) as [->|N]; cbn [andb].
    + destruct (Z.leb_spec i j) as [C1|C1], (Z.ltb_spec j (i + zlen l)) as [C2|C2]; cbn [andb].
      2,3,4: rewrite B2 by lia; destruct (L k) as (_ & _ & E); apply E; lia.
      rewrite <- B1 by lia. f_equal. ring.
    + rewrite B2; [destruct (L n) as (_ & _ & E); apply E; lia|]. intros C.
      apply (D n k j (lo n + j - lo k) N Hj); lia.
  - intros a Ha. apply B2. intros C. apply (Ha k (a - lo k)); lia.
Qed.

(** The same from [updated]. *)
Lemma lay_updated : forall m m' arr k i l lo' hi f, laid_out w m lo arr -> 0 <= i ->
  i + zlen l <= size arr k -> updated w m m' lo' hi f -> lo' = lo k + i -> hi = lo k + i + zlen l ->
  (forall n, 0 <= n < zlen l -> f (lo k + i + n) = get_at n l) ->
  follows w lo m m' arr (overwrite arr (k, i) l).
Proof.
  intros m m' arr k i l lo' hi f L Hi Hl (W & S & B) -> -> F. apply lay_over; try assumption.
  - intros n Hn. rewrite B. unfold inr.
    replace ((lo k + i <=? lo k + i + n) && (lo k + i + n <? lo k + i + zlen l)) with true by lia.
    apply F, Hn.
  - intros a Ha. rewrite B. unfold inr.
    replace ((lo k + i <=? a) && (a <? lo k + i + zlen l)) with false by lia. reflexivity.
Qed.

(** Two places in different arrays, or in one array. *)
Lemma between : forall m arr k l i j d e, laid_out w m lo arr -> k <> l ->
  0 <= i <= j -> j <= size arr k -> 0 <= d <= e -> e <= size arr l -> i < j -> d < e ->
  lo l + e <= lo k + i \/ lo k + j <= lo l + d.
Proof.
  intros m arr k l i j d e (_ & D) N H1 H2 H3 H4 H5 H6.
  destruct (Z.le_gt_cases (lo l + e) (lo k + i)) as [C|C]; [left; lia|right].
  destruct (Z.le_gt_cases (lo k + j) (lo l + d)) as [C'|C']; [lia|exfalso].
  pose proof (D k l (Z.max (lo k + i) (lo l + d) - lo k) (Z.max (lo k + i) (lo l + d) - lo l) N). lia.
Qed.

Variables (t : target) (p : policy).
Hypothesis Ht : (exists c, t = X86 c) \/ t = Neon true.
Hypothesis Hp : full_blend_defined p w.
Hypothesis H64 : w <= 64.

Definition pstep_ok (o : pop) (e : env) (m : mem) (arr : arrays) (y : reply) (s' : senv) (arr' : arrays) : Prop :=
  exists e' m', pstep t p w o e m = Ok ((y, e'), m') /\ follows w lo m m' arr arr' /\
    designates w lo arr' e' s'.

(** An operation whose result is kept in a variable. *)
Lemma kept_ok : forall o e s m arr r k i arr' (c : M iter), designates w lo arr e s ->
  pstep t p w o e m = (let* x := c in ret (NoReply, set_it e r x)) m ->
  0 <= i <= size arr k ->
  (exists x m', c m = Ok (x, m') /\ valid_it w x /\ addr w x = lo k + i /\ follows w lo m m' arr arr') ->
  pstep_ok o e m arr NoReply (sput_it s r (k, i)) arr'.
Proof.
  intros o e s m arr r k i arr' c D E Hi (x & m' & Ec & Vx & Ax & F).
  exists (set_it e r x), m'. split; [rewrite E; unfold bind; rewrite Ec; reflexivity|].
  split; [exact F|]. destruct F as (_ & _ & Z & _). apply des_it; [|apply exists_range; rewrite Z; exact Hi|auto..].
  eapply des_sizes; [exact Z|exact D].
Qed.

Lemma done_ok : forall o e s m m' arr arr' y, designates w lo arr e s ->
  pstep t p w o e m = Ok ((y, e), m') -> follows w lo m m' arr arr' ->
  pstep_ok o e m arr y s arr'.
Proof.
  intros o e s m m' arr arr' y D E F. exists e, m'. split; [exact E|]. split; [exact F|].
  destruct F as (_ & _ & Z & _). eapply des_sizes; [exact Z|exact D].
Qed.

(** A range of an array as a range of bits. *)
Lemma range_ok : forall e s m arr x y k i j, laid_out w m lo arr -> designates w lo arr e s ->
  sit s x = Some (k, i) -> sit s y = Some (k, j) -> i <= j ->
  good_range w m (eit e x) (eit e y) /\ addr w (eit e x) = lo k + i /\ addr w (eit e y) = lo k + j /\
  0 <= i /\ j <= size arr k.
Proof.
  intros e s m arr x y k i j (L & _) (D & _) E1 E2 Hij.
  destruct (D x k i E1) as (H1 & V1 & A1), (D y k j E2) as (H2 & V2 & A2).
  apply exists_range in H1, H2. destruct (L k) as (Mx & Mp & _).
  split; [|repeat split; assumption || lia]. unfold good_range. rewrite A1, A2.
  split; [exact V1|]. split; [exact V2|]. split; [lia|]. intros a Ha. apply Mp. lia.
Qed.

Lemma dest_ok : forall e s m arr z l d n, laid_out w m lo arr -> designates w lo arr e s ->
  sit s z = Some (l, d) -> d + n <= size arr l ->
  good_dest w m (eit e z) n /\ addr w (eit e z) = lo l + d /\ 0 <= d.
Proof.
  intros e s m arr z l d n (L & _) (D & _) E Hn. destruct (D z l d E) as (H & V & A).
  apply exists_range in H. destruct (L l) as (Mx & Mp & _). unfold good_dest. rewrite A.
  split; [|split; [reflexivity|lia]]. split; [exact V|]. intros a Ha. apply Mp. lia.
Qed.

(** The word of an iterator into an array that is not empty. *)
Lemma word_ok : forall m arr k i it, laid_out w m lo arr -> 0 < size arr k -> 0 <= i <= size arr k ->
  valid_it w it -> addr w it = lo k + i -> ip it <> 0 -> m (ib it) <> None.
Proof.
  intros m arr k i it (L & _) Hs Hi V A N. destruct (L k) as (_ & Mp & _).
  pose proof (valid_pos w Vw) as W. unfold valid_it in V. unfold addr in A.
  destruct (Z.eq_dec i (size arr k)) as [E|E].
  - assert (Q : (lo k + i - 1) / w = ib it)
      by (symmetry; apply (Z.div_unique _ w (ib it) (ip it - 1)); lia).
    rewrite <- Q. apply Mp. lia.
  - assert (Q : (lo k + i) / w = ib it) by (symmetry; apply (Z.div_unique _ w (ib it) (ip it)); lia).
    rewrite <- Q. apply Mp. lia.
Qed.

(** Where the source and the destination of an algorithm lie. *)
Lemma apart_ok : forall m arr k i j l d, laid_out w m lo arr -> 0 <= i <= j -> j <= size arr k ->
  0 <= d -> d + (j - i) <= size arr l -> Nat.eqb l k && (i <? d) && (d <? j) = false ->
  i = j \/ lo l + d <= lo k + i \/ lo k + j <= lo l + d.
Proof.
  intros m arr k i j l d L H1 H2 H3 H4 H5. destruct (Z.eq_dec i j) as [E|E]; [left; exact E|right].
  destruct (Nat.eqb_spec l k) as [->|N]; cbn [andb] in H5; [lia|].
  pose proof (between m arr k l i j d (d + (j - i)) L ltac:(congruence) H1 H2 ltac:(lia) H4 ltac:(lia) ltac:(lia)).
  lia.
Qed.

Ltac opt1 :=
  match goal with
  | H : given ?x _ = Some _ |- _ =>
    let k := fresh "k" in let i := fresh "i" in let E := fresh "E" in
    destruct x as [[k i]|] eqn:E; [cbn [given fst snd] in H|discriminate H]
  | H : check ?b _ = Some _ |- _ =>
    let C := fresh "C" in destruct b eqn:C; [cbn [check] in H|discriminate H]
  | H : Some _ = Some _ |- _ => injection H as <- <- <-
  end.

(** [copy] and [transform]: the elements of the destination. *)
Lemma sent_ok : forall m m' arr k i j l d f X (x : iter), laid_out w m lo arr ->
  0 <= i <= j -> j <= size arr k -> 0 <= d -> d + (j - i) <= size arr l -> zlen X = j - i ->
  updated w m m' (lo l + d) (lo l + d + (lo k + j - (lo k + i))) f ->
  (forall n, 0 <= n < j - i -> f (lo l + d + n) = get_at n X) ->
  follows w lo m m' arr (overwrite arr (l, d) X).
Proof.
  intros m m' arr k i j l d f X x L H1 H2 H3 H4 HX U F.
  eapply lay_updated; [exact L|lia|lia|exact U|reflexivity|lia|]. intros n Hn. apply F. lia.
Qed.

Lemma shifted_len : forall arr k i j d b, 0 <= i <= j -> j <= size arr k -> 0 <= d <= j - i ->
  zlen (slice (i + d) j (arr k) ++ repeat b (Z.to_nat d)) = j - i /\
  zlen (repeat b (Z.to_nat d) ++ slice i (j - d) (arr k)) = j - i.
Proof.
  intros arr k i j d b H1 H2 H3. rewrite !zlen_app, !zlen_slice' by lia.
  assert (zlen (repeat b (Z.to_nat d)) = d) by (unfold zlen; rewrite repeat_length; lia). lia.
Qed.

Lemma get_repeat' : forall b n k, 0 <= k < n -> get_at k (repeat b (Z.to_nat n)) = b.
Proof.
  intros b n k H. unfold get_at. rewrite (nth_indep _ false b) by (rewrite repeat_length; lia).
  apply nth_repeat.
Qed.

(** The shifts for every count. *)
Lemma any_shift_left : forall m first last n, wf_mem w m -> good_range w m first last ->
  let d := Z.min (Z.max n 0) (addr w last - addr w first) in
  exists r m', shift_left p w first last n m = Ok (r, m') /\ valid_it w r /\
    addr w r = addr w last - d /\ wf_mem w m' /\ same_dom m m' /\
    (forall i, addr w first <= i < addr w last - d -> bit w m' i = bit w m (i + d)) /\
    (forall i, i < addr w first \/ addr w last <= i -> bit w m' i = bit w m i).
Proof.
  intros m first last n W G d. pose proof G as (V1 & V2 & H & _).
  destruct (shift_left_none p w m first last n Vw G) as (N1 & N2).
  destruct (Z.le_gt_cases n 0) as [C|C]; [|destruct (Z.le_gt_cases (addr w last - addr w first) n) as [C'|C']].
  - exists last, m. split; [apply N1, C|]. split; [exact V2|]. split; [lia|]. split; [exact W|].
    split; [apply same_dom_refl|]. split; [|reflexivity]. intros i Hi. f_equal. lia.
  - exists first, m. split; [apply N2; lia|]. split; [exact V1|]. split; [lia|]. split; [exact W|].
    split; [apply same_dom_refl|]. split; [|reflexivity]. intros i Hi. lia.
  - replace d with n by lia. apply shift_left_ok; try assumption; [lia|tauto].
Qed.

Lemma any_shift_right : forall m first last n, wf_mem w m -> good_range w m first last ->
  let d := Z.min (Z.max n 0) (addr w last - addr w first) in
  exists r m', shift_right p w first last n m = Ok (r, m') /\ valid_it w r /\
    addr w r = addr w first + d /\ wf_mem w m' /\ same_dom m m' /\
    (forall i, addr w first + d <= i < addr w last -> bit w m' i = bit w m (i - d)) /\
    (forall i, i < addr w first \/ addr w last <= i -> bit w m' i = bit w m i).
Proof.
  intros m first last n W G d. pose proof G as (V1 & V2 & H & _).
  destruct (shift_right_none p w m first last n Vw G) as (N1 & N2).
  destruct (Z.le_gt_cases n 0) as [C|C]; [|destruct (Z.le_gt_cases (addr w last - addr w first) n) as [C'|C']].
  - exists first, m. split; [apply N1, C|]. split; [exact V1|]. split; [lia|]. split; [exact W|].
    split; [apply same_dom_refl|]. split; [|reflexivity]. intros i Hi. f_equal. lia.
  - exists last, m. split; [apply N2; lia|]. split; [exact V2|]. split; [lia|]. split; [exact W|].
    split; [apply same_dom_refl|]. split; [|reflexivity]. intros i Hi. lia.
  - replace d with n by lia. apply shift_right_ok; try assumption; [lia|tauto].
Qed.

Lemma mapped_dom : forall m m' a b, same_dom m m' -> mapped w m a b -> mapped w m' a b.
Proof. intros m m' a b S M i Hi N. apply (M i Hi), S, N. Qed.

Lemma spstep_ok : forall o e s m arr y s' arr', wf_mem w m -> laid_out w m lo arr ->
  (forall k, size arr k < 2 ^ 32) -> designates w lo arr e s ->
  spstep o s arr = Some (y, s', arr') -> pstep_ok o e m arr y s' arr'.
Proof.
  intros o e s m arr y s' arr' W L Sm D H. pose proof (valid_pos w Vw) as Pw.
  assert (RG : forall x y k i k' j, sit s x = Some (k, i) -> sit s y = Some (k', j) ->
    Nat.eqb k k' && (i <=? j) && (0 <? size arr k) = true ->
    k' = k /\ i <= j /\ 0 < size arr k /\
    good_range w m (eit e x) (eit e y) /\ addr w (eit e x) = lo k + i /\
    addr w (eit e y) = lo k + j /\ 0 <= i /\ j <= size arr k).
  { intros x y0 k i k' j E1 E2 C. destruct (Nat.eqb_spec k k') as [<-|N]; [|discriminate C].
    cbn [andb] in C. split; [reflexivity|]. split; [lia|]. split; [lia|].
    apply (range_ok e s m arr x y0 k i j L D E1 E2). lia. }
  destruct o; cbn [spstep] in H; cbv zeta in H.
  - (* POp *) destruct (sstep_ok w lo Vw p o e s m arr y s' arr' W L D H) as (e' & m' & E & F & D').
    exists e', m'. auto.
  - (* PFill *) repeat opt1. destruct (RG _ _ _ _ _ _ E E0 C) as (-> & C1 & C2 & G & A1 & A2 & B1 & B2).
    destruct (fill_ok p w m _ _ b Vw W G) as (m' & Ef & U). rewrite A1, A2 in U.
    eapply done_ok; [exact D|cbn [pstep]; unfold bind; rewrite Ef; reflexivity|].
    assert (Zl : zlen (repeat b (Z.to_nat (i0 - i))) = i0 - i) by (unfold zlen; rewrite repeat_length; lia).
    eapply lay_updated; [exact L|lia|lia|exact U|reflexivity|lia|].
    intros n Hn. rewrite get_repeat' by lia. reflexivity.
  - (* PReverse *) repeat opt1. destruct (RG _ _ _ _ _ _ E E0 C) as (-> & C1 & C2 & G & A1 & A2 & B1 & B2).
    pose proof (Sm k) as Sk. pose proof G as (V1 & V2 & _).
    destruct (reverse_ok p w m _ _ Vw W G) as (m' & Ef & U).
    { rewrite A1, A2. unfold max_bits. lia. }
    { intros _. destruct (Z.eq_dec (ip (eit e x)) 0) as [Z0|Z0]; [left; exact Z0|right].
      apply (word_ok m arr k i (eit e x) L); assumption || lia. }
    { right. right. right. exact Hp. }
    rewrite A1, A2 in U.
    eapply done_ok; [exact D|cbn [pstep]; unfold bind; rewrite Ef; reflexivity|].
    pose proof (zlen_slice' arr k i i0 ltac:(lia) B2) as Zl.
    eapply lay_updated; [exact L|lia|rewrite zlen_rev; lia|exact U|reflexivity|rewrite zlen_rev; lia|].
    intros n Hn. rewrite zlen_rev in Hn. rewrite get_rev, Zl by exact Hn. cbv beta.
    rewrite (slice_get m) by (assumption || lia). f_equal. lia.
  - (* PRotate *) repeat opt1. destruct (RG _ _ _ _ _ _ E E0 C) as (-> & C1 & C2 & G & A1 & A2 & B1 & B2).
    destruct (Nat.eqb_spec k1 k) as [->|N]; [|discriminate C0]. cbn [andb] in C0.
    pose proof (proj1 D _ _ _ E1) as (_ & Vn & An). pose proof (Sm k) as Sk.
    destruct (rotate_ok p w m _ _ _ Vw W G Vn) as (r' & m' & Ef & Vr & Ar & U).
    { rewrite A1, A2, An. lia. }
    { rewrite A1, A2, An. nia. }
    { left. exact H64. }
    { rewrite A1, A2, An. right. apply Z.div_lt_upper_bound; [lia|]. nia. }
    rewrite A1, A2, An in *.
    eapply kept_ok; [exact D|reflexivity|lia|]. exists r', m'.
    split; [exact Ef|]. split; [exact Vr|]. split; [lia|].
    pose proof (zlen_slice' arr k i1 i0 ltac:(lia) B2) as Z1.
    pose proof (zlen_slice' arr k i i1 ltac:(lia) ltac:(lia)) as Z2.
    eapply lay_updated; [exact L|lia|rewrite zlen_app; lia|exact U|reflexivity|rewrite zlen_app; lia|].
    intros n Hn. rewrite zlen_app in Hn. cbv beta zeta. rewrite get_app by lia. rewrite Z1.
    destruct (Z.ltb_spec n (i0 - i1)) as [Q|Q].
    + replace (lo k + i + n + (lo k + i1 - (lo k + i)) <? lo k + i0) with true by lia.
      rewrite (slice_get m) by (assumption || lia). f_equal. lia.
    + replace (lo k + i + n + (lo k + i1 - (lo k + i)) <? lo k + i0) with false by lia.
      rewrite (slice_get m) by (assumption || lia). f_equal. lia.
  - (* PShiftLeft *) repeat opt1. destruct (RG _ _ _ _ _ _ E E0 C) as (-> & C1 & C2 & G & A1 & A2 & B1 & B2).
    pose proof G as (V1 & V2 & Hl & Gm).
    destruct (any_shift_left m _ _ n W G) as (r' & m1 & Es & Vr & Ar & W1 & S1 & F1 & F2).
    rewrite A1, A2 in *. replace (lo k + i0 - (lo k + i)) with (i0 - i) in * by ring.
    set (d := Z.min (Z.max n 0) (i0 - i)) in *. assert (Hd : 0 <= d <= i0 - i) by (unfold d; lia). clearbody d.
    destruct (fill_ok p w m1 r' (eit e y0) b Vw W1) as (m2 & Ef & W2 & S2 & U).
    { split; [exact Vr|]. split; [exact V2|]. rewrite Ar, A2. split; [lia|].
      intros a Ha. apply (mapped_dom _ _ _ _ S1 Gm). lia. }
    rewrite Ar, A2 in U. destruct (shifted_len arr k i i0 d b ltac:(lia) B2 Hd) as (Z1 & _).
    eapply kept_ok; [exact D|reflexivity|lia|]. exists r', m2.
    split; [unfold bind at 1; rewrite Es; unfold bind; rewrite Ef; reflexivity|].
    split; [exact Vr|]. split; [lia|].
    apply lay_over; try assumption; [lia|eapply same_dom_trans; eassumption| |].
    + intros a Ha. rewrite Z1 in Ha. rewrite U. unfold inr.
      rewrite get_app, zlen_slice' by lia. destruct (Z.ltb_spec a (i0 - (i + d))) as [Q|Q].
      * replace ((lo k + i0 - d <=? lo k + i + a) && (lo k + i + a <? lo k + i0)) with false by lia.
        rewrite F1 by lia. rewrite (slice_get m) by (assumption || lia). f_equal. lia.
      * replace ((lo k + i0 - d <=? lo k + i + a) && (lo k + i + a <? lo k + i0)) with true by lia.
        rewrite get_repeat' by lia. reflexivity.
    + intros a Ha. rewrite Z1 in Ha. rewrite U. unfold inr.
      replace ((lo k + i0 - d <=? a) && (a <? lo k + i0)) with false by lia. apply F2. lia.
  - (* PShiftRight *) repeat opt1. destruct (RG _ _ _ _ _ _ E E0 C) as (-> & C1 & C2 & G & A1 & A2 & B1 & B2).
    pose proof G as (V1 & V2 & Hl & Gm).
    destruct (any_shift_right m _ _ n W G) as (r' & m1 & Es & Vr & Ar & W1 & S1 & F1 & F2).
    rewrite A1, A2 in *. replace (lo k + i0 - (lo k + i)) with (i0 - i) in * by ring.
    set (d := Z.min (Z.max n 0) (i0 - i)) in *. assert (Hd : 0 <= d <= i0 - i) by (unfold d; lia). clearbody d.
    destruct (fill_ok p w m1 (eit e x) r' b Vw W1) as (m2 & Ef & W2 & S2 & U).
    { split; [exact V1|]. split; [exact Vr|]. rewrite Ar, A1. split; [lia|].
      intros a Ha. apply (mapped_dom _ _ _ _ S1 Gm). lia. }
    rewrite Ar, A1 in U. destruct (shifted_len arr k i i0 d b ltac:(lia) B2 Hd) as (_ & Z1).
    eapply kept_ok; [exact D|reflexivity|lia|]. exists r', m2.
    split; [unfold bind at 1; rewrite Es; unfold bind; rewrite Ef; reflexivity|].
    split; [exact Vr|]. split; [lia|].
    assert (Zr : zlen (repeat b (Z.to_nat d)) = d) by (unfold zlen; rewrite repeat_length; lia).
    apply lay_over; try assumption; [lia|eapply same_dom_trans; eassumption| |].
    + intros a Ha. rewrite Z1 in Ha. rewrite U. unfold inr.
      rewrite get_app, Zr by lia. destruct (Z.ltb_spec a d) as [Q|Q].
      * replace ((lo k + i <=? lo k + i + a) && (lo k + i + a <? lo k + i + d)) with true by lia.
        rewrite get_repeat' by lia. reflexivity.
      * replace ((lo k + i <=? lo k + i + a) && (lo k + i + a <? lo k + i + d)) with false by lia.
        rewrite F1 by lia. rewrite (slice_get m) by (assumption || lia). f_equal. lia.
    + intros a Ha. rewrite Z1 in Ha. rewrite U. unfold inr.
      replace ((lo k + i <=? a) && (a <? lo k + i + d)) with false by lia. apply F2. lia.
  - (* PCopyTo *) repeat opt1. destruct (RG _ _ _ _ _ _ E E0 C) as (-> & C1 & C2 & G & A1 & A2 & B1 & B2).
    apply andb_prop in C0. destruct C0 as (Rm & Ni). apply negb_true_iff in Ni.
    destruct (dest_ok e s m arr _ _ _ (i0 - i) L D E1 ltac:(lia)) as (Gd & Ad & Bd).
    pose proof (apart_ok m arr k i i0 k1 i1 L ltac:(lia) B2 Bd ltac:(lia) Ni) as Ap.
    destruct (copy_ok p w m _ _ (eit e z) Vw W G) as (r' & m' & Ef & Vr & Ar & U).
    { rewrite A1, A2. replace (lo k + i0 - (lo k + i)) with (i0 - i) by ring. exact Gd. }
    { rewrite A1, A2, Ad. lia. }
    rewrite A1, A2, Ad in *.
    eapply kept_ok; [exact D|reflexivity|cbn [fst snd]; lia|]. exists r', m'.
    split; [exact Ef|]. split; [exact Vr|]. split; [cbn [fst snd]; lia|].
    eapply sent_ok; [exact (eit e x)|exact L|split; [exact B1|exact C1]|exact B2|exact Bd|lia|apply zlen_slice'; lia|exact U|].
    intros n Hn. cbv beta. rewrite (slice_get m) by (assumption || lia). f_equal. lia.
  - (* PMoveTo *) repeat opt1. destruct (RG _ _ _ _ _ _ E E0 C) as (-> & C1 & C2 & G & A1 & A2 & B1 & B2).
    apply andb_prop in C0. destruct C0 as (Rm & Ni). apply negb_true_iff in Ni.
    destruct (dest_ok e s m arr _ _ _ (i0 - i) L D E1 ltac:(lia)) as (Gd & Ad & Bd).
    pose proof (apart_ok m arr k i i0 k1 i1 L ltac:(lia) B2 Bd ltac:(lia) Ni) as Ap.
    destruct (copy_ok p w m _ _ (eit e z) Vw W G) as (r' & m' & Ef & Vr & Ar & U).
    { rewrite A1, A2. replace (lo k + i0 - (lo k + i)) with (i0 - i) by ring. exact Gd. }
    { rewrite A1, A2, Ad. lia. }
    rewrite A1, A2, Ad in *.
    eapply kept_ok; [exact D|reflexivity|cbn [fst snd]; lia|]. exists r', m'.
    split; [exact Ef|]. split; [exact Vr|]. split; [cbn [fst snd]; lia|].
    eapply sent_ok; [exact (eit e x)|exact L|split; [exact B1|exact C1]|exact B2|exact Bd|lia|apply zlen_slice'; lia|exact U|].
    intros n Hn. cbv beta. rewrite (slice_get m) by (assumption || lia). f_equal. lia.
  - (* PCopyBackward *) repeat opt1. destruct (RG _ _ _ _ _ _ E E0 C) as (-> & C1 & C2 & G & A1 & A2 & B1 & B2).
    apply andb_prop in C0. destruct C0 as (Rm & Ni). apply negb_true_iff in Ni.
    pose proof (proj1 D _ _ _ E1) as (Xz & Vz & Az). apply exists_range in Xz.
    assert (Ap : i = i0 \/ lo k + i0 <= lo k1 + i1 \/ lo k1 + i1 <= lo k + i).
    { destruct (Z.eq_dec i i0) as [Q|Q]; [left; exact Q|right].
      destruct (Nat.eqb_spec k1 k) as [->|N]; cbn [andb] in Ni; [lia|].
      pose proof (between m arr k k1 i i0 (i1 - (i0 - i)) i1 L ltac:(congruence)). lia. }
    destruct (copy_backward_ok p w m _ _ (eit e z) Vw W G) as (r' & m' & Ef & Vr & Ar & U).
    { rewrite A1, A2. split; [exact Vz|]. rewrite Az. intros a Ha.
      destruct (proj1 L k1) as (_ & Mp & _). apply Mp. lia. }
    { rewrite A1, A2, Az. lia. }
    { right. right. right. exact Hp. }
    rewrite A1, A2, Az in *.
    eapply kept_ok; [exact D|reflexivity|cbn [fst snd]; lia|]. exists r', m'.
    split; [exact Ef|]. split; [exact Vr|]. split; [cbn [fst snd]; lia|].
    pose proof (zlen_slice' arr k i i0 ltac:(lia) B2) as Zl. unfold shifted. cbn [fst snd].
    eapply lay_updated; [exact L|lia|lia|exact U|lia|lia|].
    intros n Hn. cbv beta. rewrite (slice_get m) by (assumption || lia). f_equal. lia.
  - (* PSwapRanges *) repeat opt1. destruct (RG _ _ _ _ _ _ E E0 C) as (-> & C1 & C2 & G & A1 & A2 & B1 & B2).
    apply andb_prop in C0. destruct C0 as (Rm & Ni).
    destruct (dest_ok e s m arr _ _ _ (i0 - i) L D E1 ltac:(lia)) as (Gd & Ad & Bd).
    assert (Ap : lo k + i0 <= lo k1 + i1 \/ lo k1 + i1 + (i0 - i) <= lo k + i \/ i = i0).
    { destruct (Z.eq_dec i i0) as [Q|Q]; [lia|].
      destruct (Nat.eqb_spec k1 k) as [->|N]; cbn [negb orb] in Ni; [lia|].
      pose proof (between m arr k k1 i i0 i1 (i1 + (i0 - i)) L ltac:(congruence)). lia. }
    destruct (swap_ranges_ok p w m _ _ (eit e z) Vw W G) as (r' & m' & Ef & Vr & Ar & W' & S' & U).
    { rewrite A1, A2. replace (lo k + i0 - (lo k + i)) with (i0 - i) by ring. exact Gd. }
    { rewrite A1, A2, Ad. lia. }
    rewrite A1, A2, Ad in *. replace (lo k + i0 - (lo k + i)) with (i0 - i) in * by ring.
    eapply kept_ok; [exact D|reflexivity|cbn [fst snd]; lia|]. exists r', m'.
    split; [exact Ef|]. split; [exact Vr|]. split; [cbn [fst snd]; lia|].
    pose proof (zlen_slice' arr k i i0 ltac:(lia) B2) as Z1.
    pose proof (zlen_slice' arr k1 i1 (i1 + (i0 - i)) ltac:(lia) ltac:(lia)) as Z2.
    assert (Sz1 : forall n, size (overwrite arr (k, i) (slice i1 (i1 + (i0 - i)) (arr k1))) n = size arr n)
      by (apply size_overwrite; lia).
    assert (Sz2 : forall n, size (overwrite (overwrite arr (k, i) (slice i1 (i1 + (i0 - i)) (arr k1)))
        (k1, i1) (slice i i0 (arr k))) n = size arr n).
    { intros n. rewrite size_overwrite; [apply Sz1|lia|rewrite Sz1; lia]. }
    split; [exact W'|]. split; [exact S'|]. split; [exact Sz2|]. split.
    + eapply lay_change; [exact L|exact S'|exact Sz2|]. intros n a Ha. rewrite U. unfold inr.
      rewrite elem_overwrite; [|lia|rewrite Sz1; lia|lia]. rewrite elem_overwrite by lia. unfold inr.
      rewrite Z1. replace (zlen (slice i1 (i1 + (i0 - i)) (arr k1))) with (i0 - i) by lia.
      assert (X : forall l b, 0 <= b -> b + (i0 - i) <= size arr l ->
        (lo l + b <=? lo n + a) && (lo n + a <? lo l + b + (i0 - i)) =
        Nat.eqb n l && ((b <=? a) && (a <? b + (i0 - i)))).
      { intros l b Hb Hb2. destruct (Nat.eqb_spec n l) as [->|N]; cbn [andb]; [lia|].
        destruct (Z.leb_spec (lo l + b) (lo n + a)) as [Q1|Q1]; [|reflexivity].
        destruct (Z.ltb_spec (lo n + a) (lo l + b + (i0 - i))) as [Q2|Q2]; [|reflexivity].
        exfalso. apply (proj2 L n l a (lo n + a - lo l) N); lia. }
      rewrite !X by lia.
      destruct (Nat.eqb n k && ((i <=? a) && (a <? i + (i0 - i)))) eqn:Q1;
        destruct (Nat.eqb n k1 && ((i1 <=? a) && (a <? i1 + (i0 - i)))) eqn:Q2.
      * exfalso. destruct (Nat.eqb_spec n k) as [->|]; [|discriminate Q1].
        destruct (Nat.eqb_spec k k1) as [<-|]; [|discriminate Q2]. cbn [andb] in Q1, Q2. lia.
      * destruct (Nat.eqb_spec n k) as [->|]; [|discriminate Q1]. cbn [andb] in Q1.
        rewrite (slice_get m) by (assumption || lia). f_equal. lia.
      * destruct (Nat.eqb_spec n k1) as [->|]; [|discriminate Q2]. cbn [andb] in Q2.
        rewrite (slice_get m) by (assumption || lia). f_equal. lia.
      * destruct (proj1 L n) as (_ & _ & B). apply B. lia.
    + intros a Ha. rewrite U. unfold inr.
      assert (X : forall l b, 0 <= b -> b + (i0 - i) <= size arr l ->
        (lo l + b <=? a) && (a <? lo l + b + (i0 - i)) = false).
      { intros l b Hb Hb2. destruct (Z.leb_spec (lo l + b) a) as [Q1|Q1]; [|reflexivity].
        destruct (Z.ltb_spec a (lo l + b + (i0 - i))) as [Q2|Q2]; [|reflexivity].
        exfalso. apply (Ha l (a - lo l)); lia. }
      rewrite !X by lia. reflexivity.
  - (* PTransform *) repeat opt1. destruct (RG _ _ _ _ _ _ E E0 C) as (-> & C1 & C2 & G & A1 & A2 & B1 & B2).
    apply andb_prop in C0. destruct C0 as (Rm & Ni). apply negb_true_iff in Ni.
    destruct (dest_ok e s m arr _ _ _ (i0 - i) L D E1 ltac:(lia)) as (Gd & Ad & Bd).
    pose proof (apart_ok m arr k i i0 k1 i1 L ltac:(lia) B2 Bd ltac:(lia) Ni) as Ap.
    destruct (transform1_ok p w (on_words w f) f m _ _ (eit e z) Vw W G) as (r' & m' & Ef & Vr & Ar & U).
    { rewrite A1, A2. replace (lo k + i0 - (lo k + i)) with (i0 - i) by ring. exact Gd. }
    { rewrite A1, A2, Ad. lia. }
    { intros v Hv. apply on_words_range; lia. }
    { intros v n Hv Hn. apply on_words_bit; lia. }
    rewrite A1, A2, Ad in *.
    eapply kept_ok; [exact D|reflexivity|cbn [fst snd]; lia|]. exists r', m'.
    split; [exact Ef|]. split; [exact Vr|]. split; [cbn [fst snd]; lia|].
    pose proof (zlen_slice' arr k i i0 ltac:(lia) B2) as Zl.
    eapply sent_ok; [exact (eit e x)|exact L|split; [exact B1|exact C1]|exact B2|exact Bd|lia|rewrite zlen_map; exact Zl|exact U|].
    intros n Hn. cbv beta. rewrite get_map by lia. rewrite (slice_get m) by (assumption || lia). do 2 f_equal. lia.
  - (* PTransform2 *) repeat opt1. destruct (RG _ _ _ _ _ _ E E0 C) as (-> & K1 & K2 & G & A1 & A2 & B1 & B2).
    apply andb_prop in C2. destruct C2 as (Rm & Ni). apply negb_true_iff in Ni, C1.
    destruct (dest_ok e s m arr _ _ _ (i0 - i) L D E1 ltac:(lia)) as (Gs & As & Bs).
    destruct (dest_ok e s m arr _ _ _ (i0 - i) L D E2 ltac:(lia)) as (Gd & Ad & Bd).
    pose proof (apart_ok m arr k i i0 k2 i2 L ltac:(lia) B2 Bd ltac:(lia) Ni) as Ap.
    pose proof (apart_ok m arr k1 i1 (i1 + (i0 - i)) k2 i2 L ltac:(lia) ltac:(lia) Bd ltac:(lia) C1) as Ap2.
    destruct (transform2_ok p w (on_words2 w f) f m _ _ (eit e u) (eit e z) Vw W G) as (r' & m' & Ef & Vr & Ar & U).
    { rewrite A1, A2. replace (lo k + i0 - (lo k + i)) with (i0 - i) by ring. exact Gs. }
    { rewrite A1, A2. replace (lo k + i0 - (lo k + i)) with (i0 - i) by ring. exact Gd. }
    { rewrite A1, A2, Ad. lia. }
    { rewrite A1, A2, As, Ad. lia. }
    { intros v1 v2 Hv1 Hv2. apply on_words2_range; lia. }
    { intros v1 v2 n Hv1 Hv2 Hn. apply on_words2_bit; lia. }
    rewrite A1, A2, As, Ad in *.
    eapply kept_ok; [exact D|reflexivity|cbn [fst snd]; lia|]. exists r', m'.
    split; [exact Ef|]. split; [exact Vr|]. split; [cbn [fst snd]; lia|].
    pose proof (zlen_slice' arr k i i0 ltac:(lia) B2) as Z1.
    pose proof (zlen_slice' arr k1 i1 (i1 + (i0 - i)) ltac:(lia) ltac:(lia)) as Z2.
    eapply sent_ok; [exact (eit e x)|exact L|split; [exact B1|exact K1]|exact B2|exact Bd|lia|rewrite zlen_zip; lia|exact U|].
    intros n Hn. cbv beta. rewrite get_zip by lia. rewrite !(slice_get m) by (assumption || lia).
    f_equal; f_equal; lia.
  - (* PCount *) repeat opt1. destruct (RG _ _ _ _ _ _ E E0 C) as (-> & C1 & C2 & G & A1 & A2 & B1 & B2).
    pose proof (count_ok t p w m _ _ b Vw W G ltac:(tauto)) as Ef.
    rewrite A1, A2 in Ef. replace (lo k + i0 - (lo k + i)) with (i0 - i) in Ef by ring.
    pose proof (zlen_slice' arr k i i0 ltac:(lia) B2) as Zl.
    replace (Z.to_nat (i0 - i)) with (length (slice i i0 (arr k))) in Ef by (unfold zlen in Zl; lia).
    rewrite (count_occurrences _ b (slice i i0 (arr k))) in Ef.
    2:{ intros n Hn. cbv beta. rewrite (slice_get m) by (assumption || lia). reflexivity. }
    eapply done_ok; [exact D|cbn [pstep]; unfold bind; rewrite Ef|apply follows_refl; assumption].
    { reflexivity. }
    intros Q. exfalso. rewrite Q in A1. lia.
  - (* PFind *) repeat opt1. destruct (RG _ _ _ _ _ _ E E0 C) as (-> & C1 & C2 & G & A1 & A2 & B1 & B2).
    pose proof G as (V1 & V2 & _).
    destruct (find_ok p w m _ _ b Vw W G) as (r' & Ef & Vr & Hr & F1 & F2).
    { intros N. apply (word_ok m arr k i (eit e x) L); assumption || lia. }
    rewrite A1, A2 in *. pose proof (zlen_slice' arr k i i0 ltac:(lia) B2) as Zl.
    assert (Q : addr w r' - (lo k + i) = SpecClient.index_of b (slice i i0 (arr k))).
    { apply index_unique; [lia| |].
      - intros n Hn. rewrite (slice_get m) by (assumption || lia). apply F1. lia.
      - intros Hn. rewrite (slice_get m) by (assumption || lia). rewrite <- F2 by lia. f_equal. lia. }
    eapply kept_ok; [exact D|reflexivity|lia|]. exists r', m.
    split; [exact Ef|]. split; [exact Vr|]. split; [lia|]. apply follows_refl; assumption.
  - (* PEqual *) repeat opt1. destruct (RG _ _ _ _ _ _ E E0 C) as (-> & C1 & C2 & G & A1 & A2 & B1 & B2).
    destruct (dest_ok e s m arr _ _ _ (i0 - i) L D E1 ltac:(lia)) as (Gd & Ad & Bd).
    destruct (equal_ok p w m _ _ (eit e z) Vw W G) as (r' & Ef & F).
    { rewrite A1, A2. replace (lo k + i0 - (lo k + i)) with (i0 - i) by ring. exact Gd. }
    rewrite A1, A2, Ad in *. pose proof (zlen_slice' arr k i i0 ltac:(lia) B2) as Zl.
    pose proof (zlen_slice' arr k1 i1 (i1 + (i0 - i)) ltac:(lia) ltac:(lia)) as Zl2.
    eapply done_ok; [exact D| |apply follows_refl; assumption].
    cbn [pstep]. unfold bind. rewrite Ef. unfold ret.
    replace r' with (if list_eq_dec bool_dec (slice i i0 (arr k)) (slice i1 (i1 + (i0 - i)) (arr k1)) then true else false);
      [reflexivity|].
    pose proof (slices_eq (slice i i0 (arr k)) (slice i1 (i1 + (i0 - i)) (arr k1)) (i0 - i) Zl ltac:(lia)) as SE.
    assert (F' : r' = true <-> slice i i0 (arr k) = slice i1 (i1 + (i0 - i)) (arr k1)).
    { rewrite F, SE. split; intros Q n Hn; specialize (Q n ltac:(lia)).
      - rewrite !(slice_get m) by (assumption || lia). exact Q.
      - rewrite !(slice_get m) in Q by (assumption || lia). exact Q. }
    destruct (list_eq_dec bool_dec _ _) as [Q|Q]; destruct r'; try reflexivity;
      [apply F' in Q; discriminate Q|exfalso; apply Q, F'; reflexivity].
Qed.
End Prog.

(** ** Whole programs *)
Lemma sprun_ok : forall w lo t p, valid_w w -> w <= 64 -> (exists c, t = X86 c) \/ t = Neon true ->
  full_blend_defined p w -> forall A n (c : prog A) m arr e s, wf_mem w m ->
  laid_out w m lo arr -> (forall k, size arr k < 2 ^ 32) -> designates w lo arr e s ->
  match sprun n c s arr with
  | Returned a arr' => exists m', prun t p w n c e m = Ok (a, m') /\ follows w lo m m' arr arr'
  | Running => prun t p w n c e m = Fuel
  | NotAllowed => True
  end.
Proof.
  intros w lo t p Vw H64 Ht Hp A n. induction n as [|n IH]; intros c m arr e s W L Sm D; [reflexivity|].
  destruct c as [a|o k]; cbn [sprun prun].
  - exists m. split; [reflexivity|]. apply follows_refl; assumption.
  - destruct (spstep o s arr) as [[[y s'] arr']|] eqn:E; [|exact I].
    destruct (spstep_ok w lo Vw t p Ht Hp H64 o e s m arr y s' arr' W L Sm D E) as (e' & m' & E1 & F & D').
    destruct F as (W' & S' & Z' & L' & O').
    specialize (IH (k y) m' arr' e' s' W' L' ltac:(intros l; rewrite Z'; apply Sm) D').
    unfold bind at 1. unfold bind at 1. rewrite E1. cbn [fst snd].
    destruct (sprun n (k y) s' arr') as [a arr2| |]; [|exact IH|exact I].
    destruct IH as (m2 & E2 & W2 & S2 & Z2 & L2 & O2). exists m2. split; [exact E2|].
    split; [exact W2|]. split; [eapply same_dom_trans; eassumption|].
    split; [intros; rewrite Z2; apply Z'|]. split; [exact L2|].
    intros x Hx. rewrite O2; [apply O', Hx|]. intros l i Hi. rewrite Z' in Hi. apply Hx, Hi.
Qed.

Lemma alg_programs_ok : forall A t p w m lo arr n (c : prog A) e s,
  valid_w w -> w <= 64 -> (exists c, t = X86 c) \/ t = Neon true -> full_blend_defined p w ->
  wf_mem w m -> laid_out w m lo arr -> (forall k, size arr k < 2 ^ 32) -> designates w lo arr e s ->
  match sprun n c s arr with
  | Returned a arr' => exists m', prun t p w n c e m = Ok (a, m') /\ wf_mem w m' /\ same_dom m m' /\
      laid_out w m' lo arr' /\ forall i, elsewhere lo arr i -> bit w m' i = bit w m i
  | Running => prun t p w n c e m = Fuel
  | NotAllowed => True
  end.
Proof.
  intros A t p w m lo arr n c e s Vw H64 Ht Hp W L Sm D.
  pose proof (sprun_ok w lo t p Vw H64 Ht Hp A n c m arr e s W L Sm D) as H.
  destruct (sprun n c s arr) as [a arr'| |]; [|exact H|exact I].
  destruct H as (m' & E & W' & S' & _ & L' & O'). exists m'. auto.
Qed.

Lemma alg_widths_ok : forall A t1 t2 p1 p2 w1 w2 m1 m2 lo1 lo2 arr n (c : prog A) e1 e2 s,
  valid_w w1 -> valid_w w2 -> w1 <= 64 -> w2 <= 64 -> (exists c, t1 = X86 c) \/ t1 = Neon true ->
  (exists c, t2 = X86 c) \/ t2 = Neon true -> full_blend_defined p1 w1 -> full_blend_defined p2 w2 ->
  wf_mem w1 m1 -> wf_mem w2 m2 -> laid_out w1 m1 lo1 arr -> laid_out w2 m2 lo2 arr ->
  (forall k, size arr k < 2 ^ 32) ->
  designates w1 lo1 arr e1 s -> designates w2 lo2 arr e2 s ->
  sprun n c s arr <> NotAllowed ->
  (prun t1 p1 w1 n c e1 m1 = Fuel /\ prun t2 p2 w2 n c e2 m2 = Fuel) \/
  exists a m1' m2', prun t1 p1 w1 n c e1 m1 = Ok (a, m1') /\ prun t2 p2 w2 n c e2 m2 = Ok (a, m2') /\
    forall k i, 0 <= i < size arr k -> bit w1 m1' (lo1 k + i) = bit w2 m2' (lo2 k + i).
Proof.
  intros A t1 t2 p1 p2 w1 w2 m1 m2 lo1 lo2 arr n c e1 e2 s V1 V2 L64 R64 T1 T2 P1 P2 W1 W2 L1 L2 Sm D1 D2 N.
  pose proof (sprun_ok w1 lo1 t1 p1 V1 L64 T1 P1 A n c m1 arr e1 s W1 L1 Sm D1) as H1.
  pose proof (sprun_ok w2 lo2 t2 p2 V2 R64 T2 P2 A n c m2 arr e2 s W2 L2 Sm D2) as H2.
  destruct (sprun n c s arr) as [a arr'| |]; [right|left; auto|contradiction].
  destruct H1 as (m1' & E1 & _ & _ & Z1 & (X1 & _) & _), H2 as (m2' & E2 & _ & _ & Z2 & (X2 & _) & _).
  exists a, m1', m2'. split; [exact E1|]. split; [exact E2|]. intros k i Hi.
  destruct (X1 k) as (_ & _ & Y1), (X2 k) as (_ & _ & Y2).
  rewrite Y1, Y2 by (rewrite ?Z1, ?Z2; exact Hi). reflexivity.
Qed.
