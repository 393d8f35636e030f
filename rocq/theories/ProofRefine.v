(** A call that is defined under a strict shift policy has the same outcome
    under every laxer policy: the policy only matters for undefined shifts. *)
From Coq Require Import ZArith Bool List Lia.
From Verif Require Import Base WordOps IterModel PopcntModel AlgModel TransformModel
  ShiftModel SwapModel ReverseModel RotateModel.
Import ListNotations.
Open Scope Z_scope.

(** The policies ordered by how many shifts they define (C++17, C++20, machine). *)
Definition laxer (p q : policy) : Prop :=
  match p, q with
  | Strict17, _ => True
  | Strict20, Strict17 => False
  | Strict20, _ => True
  | Hw _, _ => p = q
  end.

Definition rle {A} (r s : res A) : Prop := forall a, r = Ok a -> s = Ok a.
Definition mle {A} (c d : M A) : Prop := forall m x, c m = Ok x -> d m = Ok x.

Lemma rle_refl : forall A (r : res A), rle r r.
Proof. intros A r a H. exact H. Qed.

Lemma mle_refl : forall A (c : M A), mle c c.
Proof. intros A c m x H. exact H. Qed.

Lemma rle_bind : forall A B (r s : res A) (f g : A -> res B), rle r s ->
  (forall a, rle (f a) (g a)) -> rle (rbind r f) (rbind s g).
Proof.
  intros A B r s f g H1 H2 b H. unfold rbind in *. destruct r as [a| | | |]; try discriminate.
  rewrite (H1 a eq_refl). apply H2, H.
Qed.

Lemma mle_bind : forall A B (c d : M A) (f g : A -> M B), mle c d ->
  (forall a, mle (f a) (g a)) -> mle (bind c f) (bind d g).
Proof.
  intros A B c d f g H1 H2 m b H. unfold bind in *.
  destruct (c m) as [[a m1]| | | |] eqn:E; try discriminate.
  rewrite (H1 _ _ E). apply H2, H.
Qed.

Lemma mle_lift : forall A (r s : res A), rle r s -> mle (lift r) (lift s).
Proof.
  intros A r s H m x E. unfold lift in *. destruct r as [a| | | |]; try discriminate.
  rewrite (H a eq_refl). exact E.
Qed.

Lemma le_cshl : forall p q w x c, laxer p q -> rle (cshl p w x c) (cshl q w x c).
Proof.
  intros p q w x c H a. unfold cshl. unfold laxer in H.
  destruct ((0 <=? c) && (c <? prom w)); destruct (w <? 32); destruct p, q;
    try contradiction; try (injection H as <-); intros E; try exact E; try discriminate;
    destruct ((x <? 0) || (2 ^ 32 <=? x * 2 ^ c)); try discriminate; exact E.
Qed.

Lemma le_cshr : forall p q w x c, laxer p q -> rle (cshr p w x c) (cshr q w x c).
Proof.
  intros p q w x c H a. unfold cshr. unfold laxer in H.
  destruct ((0 <=? c) && (c <? prom w)); destruct (w <? 32); destruct p, q;
    try contradiction; try (injection H as <-); intros E; try exact E; discriminate.
Qed.

Create HintDb refine discriminated.
#[export] Hint Resolve le_cshl le_cshr : refine.

Ltac rstep :=
  match goal with
  | |- forall _, _ => intro
  | |- rle ?x ?x => apply rle_refl
  | |- mle ?x ?x => apply mle_refl
  | |- _ => solve [auto with refine nocore]
  | |- rle (rbind _ _) (rbind _ _) => apply rle_bind
  | |- mle (bind _ _) (bind _ _) => apply mle_bind
  | |- mle (lift _) (lift _) => apply mle_lift
  | |- rle (match ?x with _ => _ end) (match ?x with _ => _ end) => destruct x
  | |- mle (match ?x with _ => _ end) (match ?x with _ => _ end) => destruct x
  | |- _ => progress cbv zeta
  end.
Ltac refine_by f := intros; unfold f; repeat rstep.

Section Laxer.
  Variables p q : policy.
  Hypothesis L : laxer p q.

  Lemma le_bextr : forall w x s l, rle (bextr p w x s l) (bextr q w x s l).
  Proof. refine_by bextr. Qed.
  Hint Resolve le_bextr : refine.

  Lemma le_bitblend : forall w x y s l, rle (bitblend p w x y s l) (bitblend q w x y s l).
  Proof. refine_by bitblend. Qed.
  Hint Resolve le_bitblend : refine.

  Lemma le_low_mask : forall w n, rle (low_mask p w n) (low_mask q w n).
  Proof. refine_by low_mask. Qed.
  Hint Resolve le_low_mask : refine.

  Lemma le_shld : forall w x y c, rle (shld p w x y c) (shld q w x y c).
  Proof. refine_by shld. Qed.

  Lemma le_shrd : forall w x y c, rle (shrd p w x y c) (shrd q w x y c).
  Proof. refine_by shrd. Qed.
  Hint Resolve le_shrd : refine.

  Lemma le_bitexch2 : forall w a b s l, mle (bitexch2 p w a b s l) (bitexch2 q w a b s l).
  Proof. refine_by bitexch2. Qed.
  Hint Resolve le_bitexch2 : refine.

  Lemma le_exch_step : forall w a b l d k s,
    mle (exch_step p w a b l d k s) (exch_step q w a b l d k s).
  Proof. refine_by exch_step. Qed.
  Hint Resolve le_exch_step : refine.

  Lemma le_bitexch3 : forall w a b s t l,
    mle (bitexch3 p w a b s t l) (bitexch3 q w a b s t l).
  Proof. refine_by bitexch3. Qed.
  Hint Resolve le_bitexch3 : refine.

  Lemma le_bitswap_mask : forall w f n c k,
    rle (bitswap_mask p w f n c k) (bitswap_mask q w f n c k).
  Proof. intros w f. induction f; intros; cbn [bitswap_mask]; repeat rstep; apply IHf. Qed.
  Hint Resolve le_bitswap_mask : refine.

  Lemma le_bitswap_rec : forall w f n x, rle (bitswap_rec p w f n x) (bitswap_rec q w f n x).
  Proof. intros w f. induction f; intros; cbn [bitswap_rec]; repeat rstep; apply IHf. Qed.
  Hint Resolve le_bitswap_rec : refine.

  Lemma le_bitswap : forall w x, rle (bitswap p w x) (bitswap q w x).
  Proof. refine_by bitswap. Qed.
  Hint Resolve le_bitswap : refine.

  Lemma le_get_word : forall w i l, mle (get_word p w i l) (get_word q w i l).
  Proof. refine_by get_word. Qed.
  Hint Resolve le_get_word : refine.

  Lemma le_write_word : forall w x i l, mle (write_word p w x i l) (write_word q w x i l).
  Proof. refine_by write_word. Qed.
  Hint Resolve le_write_word : refine.

  Lemma le_padded_read : forall w i j b,
    mle (padded_read p w i j b) (padded_read q w i j b).
  Proof. refine_by padded_read. Qed.

  Lemma le_fill : forall w i j b, mle (fill p w i j b) (fill q w i j b).
  Proof. refine_by fill. Qed.

  Lemma le_find : forall w i j b, mle (find p w i j b) (find q w i j b).
  Proof. refine_by find. Qed.

  Lemma le_equal_loop : forall w f a i r,
    mle (equal_loop p w f a i r) (equal_loop q w f a i r).
  Proof. intros w f. induction f; intros; cbn [equal_loop]; repeat rstep; apply IHf. Qed.
  Hint Resolve le_equal_loop : refine.

  Lemma le_equal_tail : forall w a i r, mle (equal_tail p w a i r) (equal_tail q w a i r).
  Proof. refine_by equal_tail. Qed.
  Hint Resolve le_equal_tail : refine.

  Lemma le_equal : forall w i j d, mle (equal p w i j d) (equal q w i j d).
  Proof. refine_by equal. Qed.

  Lemma le_count : forall t w i j b, mle (count t p w i j b) (count t q w i j b).
  Proof. refine_by count. Qed.

  Lemma le_copy_loop : forall w f a i r,
    mle (copy_loop p w f a i r) (copy_loop q w f a i r).
  Proof. intros w f. induction f; intros; cbn [copy_loop]; repeat rstep; apply IHf. Qed.
  Hint Resolve le_copy_loop : refine.

  Lemma le_copy : forall w i j d, mle (copy p w i j d) (copy q w i j d).
  Proof. refine_by copy. Qed.

  Lemma le_copy_backward_loop : forall w f a i r,
    mle (copy_backward_loop p w f a i r) (copy_backward_loop q w f a i r).
  Proof.
    intros w f. induction f; intros; cbn [copy_backward_loop]; repeat rstep; apply IHf.
  Qed.
  Hint Resolve le_copy_backward_loop : refine.

  Lemma le_copy_backward : forall w i j d,
    mle (copy_backward p w i j d) (copy_backward q w i j d).
  Proof. refine_by copy_backward. Qed.

  Lemma le_transform_loop : forall w op f a i r,
    mle (transform_loop p w op f a i r) (transform_loop q w op f a i r).
  Proof.
    intros w op f. induction f; intros; cbn [transform_loop]; repeat rstep; apply IHf.
  Qed.
  Hint Resolve le_transform_loop : refine.

  Lemma le_transform1 : forall w op i j d,
    mle (transform1 p w op i j d) (transform1 q w op i j d).
  Proof. refine_by transform1. Qed.

  Lemma le_transform2_loop : forall w op f a i j r,
    mle (transform2_loop p w op f a i j r) (transform2_loop q w op f a i j r).
  Proof.
    intros w op f. induction f; intros; cbn [transform2_loop]; repeat rstep; apply IHf.
  Qed.
  Hint Resolve le_transform2_loop : refine.

  Lemma le_transform2 : forall w op i j k d,
    mle (transform2 p w op i j k d) (transform2 q w op i j k d).
  Proof. refine_by transform2. Qed.

  Lemma le_shift_left_align : forall w i j d n,
    mle (shift_left_align p w i j d n) (shift_left_align q w i j d n).
  Proof. refine_by shift_left_align. Qed.
  Hint Resolve le_shift_left_align : refine.

  Lemma le_shift_left_loop : forall w f a b c o,
    mle (shift_left_loop p w f a b c o) (shift_left_loop q w f a b c o).
  Proof.
    intros w f. induction f; intros; cbn [shift_left_loop]; repeat rstep; apply IHf.
  Qed.
  Hint Resolve le_shift_left_loop : refine.

  Lemma le_shift_left : forall w i j n, mle (shift_left p w i j n) (shift_left q w i j n).
  Proof. refine_by shift_left. Qed.
  Hint Resolve le_shift_left : refine.

  Lemma le_shift_right_loop : forall w f a b c o,
    mle (shift_right_loop p w f a b c o) (shift_right_loop q w f a b c o).
  Proof.
    intros w f. induction f; intros; cbn [shift_right_loop]; repeat rstep; apply IHf.
  Qed.
  Hint Resolve le_shift_right_loop : refine.

  Lemma le_shift_right_words : forall w i j k o,
    mle (shift_right_words p w i j k o) (shift_right_words q w i j k o).
  Proof. refine_by shift_right_words. Qed.
  Hint Resolve le_shift_right_words : refine.

  Lemma le_shift_right_main : forall w i j k n,
    mle (shift_right_main p w i j k n) (shift_right_main q w i j k n).
  Proof. refine_by shift_right_main. Qed.
  Hint Resolve le_shift_right_main : refine.

  Lemma le_shift_right : forall w i j n,
    mle (shift_right p w i j n) (shift_right q w i j n).
  Proof. refine_by shift_right. Qed.
  Hint Resolve le_shift_right : refine.

  Lemma le_swap_one_word : forall w i j k,
    mle (swap_one_word p w i j k) (swap_one_word q w i j k).
  Proof. refine_by swap_one_word. Qed.
  Hint Resolve le_swap_one_word : refine.

  Lemma le_swap_aligned : forall w i j k,
    mle (swap_aligned p w i j k) (swap_aligned q w i j k).
  Proof. refine_by swap_aligned. Qed.
  Hint Resolve le_swap_aligned : refine.

  Lemma le_swap_loop : forall w n a b c d,
    mle (swap_loop p w n a b c d) (swap_loop q w n a b c d).
  Proof. intros w f. induction f; intros; cbn [swap_loop]; repeat rstep; apply IHf. Qed.
  Hint Resolve le_swap_loop : refine.

  Lemma le_swap_unaligned : forall w i j k,
    mle (swap_unaligned p w i j k) (swap_unaligned q w i j k).
  Proof. refine_by swap_unaligned. Qed.
  Hint Resolve le_swap_unaligned : refine.

  Lemma le_swap_ranges : forall w i j k,
    mle (swap_ranges p w i j k) (swap_ranges q w i j k).
  Proof. refine_by swap_ranges. Qed.
  Hint Resolve le_swap_ranges : refine.

  Lemma le_words_bitswap : forall w n a,
    mle (words_bitswap p w n a) (words_bitswap q w n a).
  Proof. intros w f. induction f; intros; cbn [words_bitswap]; repeat rstep; apply IHf. Qed.
  Hint Resolve le_words_bitswap : refine.

  Lemma le_reverse_shift : forall w i j g e,
    mle (reverse_shift p w i j g e) (reverse_shift q w i j g e).
  Proof. refine_by reverse_shift. Qed.
  Hint Resolve le_reverse_shift : refine.

  Lemma le_reverse : forall w i j, mle (reverse p w i j) (reverse q w i j).
  Proof. refine_by reverse. Qed.

  Lemma le_rot_up : forall w n i j k, mle (rot_up p w n i j k) (rot_up q w n i j k).
  Proof. intros w f. induction f; intros; cbn [rot_up]; repeat rstep; apply IHf. Qed.
  Hint Resolve le_rot_up : refine.

  Lemma le_rot_down : forall w n i j k, mle (rot_down p w n i j k) (rot_down q w n i j k).
  Proof. intros w f. induction f; intros; cbn [rot_down]; repeat rstep; apply IHf. Qed.
  Hint Resolve le_rot_down : refine.

  Lemma le_rot_loop : forall w f i n k r,
    mle (rot_loop p w f i n k r) (rot_loop q w f i n k r).
  Proof. intros w f. induction f; intros; cbn [rot_loop]; repeat rstep; apply IHf. Qed.
  Hint Resolve le_rot_loop : refine.

  Lemma le_rotate_via_raw : forall w i j k,
    mle (rotate_via_raw p w i j k) (rotate_via_raw q w i j k).
  Proof. refine_by rotate_via_raw. Qed.
  Hint Resolve le_rotate_via_raw : refine.

  Lemma le_rotate_one_word : forall w i j k,
    mle (rotate_one_word p w i j k) (rotate_one_word q w i j k).
  Proof. refine_by rotate_one_word. Qed.
  Hint Resolve le_rotate_one_word : refine.

  Lemma le_rotate : forall w i j k, mle (rotate p w i j k) (rotate q w i j k).
  Proof. refine_by rotate. Qed.
End Laxer.
