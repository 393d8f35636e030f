(** Locality: an algorithm depends only on the words it is given. Whatever it
    does on a memory without touching an unmapped word, it does in the same way
    on every larger memory, and it leaves the rest of that memory alone. *)
From Coq Require Import ZArith Bool List Lia.
From Verif Require Import Base WordOps IterModel RefModel PopcntModel AlgModel TransformModel
  ShiftModel SwapModel ReverseModel RotateModel Spec.
Import ListNotations.
Open Scope Z_scope.

(** Every word of [m] is a word of [big] with the same value. *)
Definition below (m big : mem) : Prop := forall a x, m a = Some x -> big a = Some x.

(** [c] succeeds on [m] only by touching words of [m]. *)
Definition framed {A} (c : M A) : Prop := forall m big, below m big ->
  match c m with
  | Ok (a, m1) => exists big1, c big = Ok (a, big1) /\ below m1 big1 /\
      same_dom m m1 /\ forall x, m x = None -> big1 x = big x
  | UB OutOfBounds => True
  | UB k => c big = UB k
  | Assert => c big = Assert
  | Throw => c big = Throw
  | Fuel => c big = Fuel
  end.

Lemma framed_ret : forall A (a : A), framed (ret a).
Proof.
  intros A a m big H. cbn. exists big. split; [reflexivity|]. split; [assumption|].
  split; [intros x; tauto|reflexivity].
Qed.

Lemma framed_lift : forall A (r : res A), framed (lift r).
Proof.
  intros A r m big H. unfold lift. destruct r as [a|k| | |]; try reflexivity.
  - apply (framed_ret A a m big H).
  - destruct k; auto.
Qed.

Lemma framed_bind : forall A B (c : M A) (f : A -> M B), framed c ->
  (forall a, framed (f a)) -> framed (bind c f).
Proof.
  intros A B c f H1 H2 m big Hb. unfold bind. specialize (H1 m big Hb).
  destruct (c m) as [[a m1]|k| | |]; [|destruct k; try exact I; rewrite H1; reflexivity|
    rewrite H1; reflexivity|rewrite H1; reflexivity|rewrite H1; reflexivity].
  destruct H1 as (big1 & E & B1 & D1 & F1). rewrite E.
  specialize (H2 a m1 big1 B1).
  destruct (f a m1) as [[b m2]|k| | |]; try exact H2.
  destruct H2 as (big2 & E2 & B2 & D2 & F2). exists big2. split; [exact E2|].
  split; [exact B2|]. split.
  - intros x. rewrite (D1 x). apply D2.
  - intros x Hx. rewrite F2 by (apply D1, Hx). apply F1, Hx.
Qed.

Lemma framed_load : forall a, framed (load a).
Proof.
  intros a m big H. unfold load. destruct (m a) as [x|] eqn:E; [|exact I].
  rewrite (H _ _ E). exists big. split; [reflexivity|]. split; [assumption|].
  split; [intros y; tauto|reflexivity].
Qed.

Lemma framed_store : forall a v, framed (store a v).
Proof.
  intros a v m big H. unfold store. destruct (m a) as [x|] eqn:E; [|exact I].
  rewrite (H _ _ E). exists (mset big a v). split; [reflexivity|]. unfold mset. split.
  - intros b y. destruct (b =? a); [auto|apply H].
  - split.
    + intros b. destruct (Z.eqb_spec b a) as [->|]; [|tauto].
      rewrite E. split; discriminate.
    + intros b Hb. destruct (Z.eqb_spec b a) as [->|]; [congruence|reflexivity].
Qed.

Create HintDb frame discriminated.
#[export] Hint Resolve framed_ret framed_lift framed_load framed_store : frame.

Ltac fstep :=
  match goal with
  | |- forall _, _ => intro
  | |- _ => solve [auto with frame nocore]
  | |- framed (bind _ _) => apply framed_bind
  | |- framed (match ?x with _ => _ end) => destruct x
  | |- _ => progress cbv zeta
  end.
Ltac frame_by f := intros; unfold f; repeat fstep.

Lemma fr_bitexch_mask : forall a b k, framed (bitexch_mask a b k).
Proof. frame_by bitexch_mask. Qed.
#[export] Hint Resolve fr_bitexch_mask : frame.

Lemma fr_words_copy : forall n a b, framed (words_copy n a b).
Proof. induction n; intros; cbn [words_copy]; repeat fstep; apply IHn. Qed.
#[export] Hint Resolve fr_words_copy : frame.

Lemma fr_words_copy_backward : forall n a b, framed (words_copy_backward n a b).
Proof. induction n; intros; cbn [words_copy_backward]; repeat fstep; apply IHn. Qed.
#[export] Hint Resolve fr_words_copy_backward : frame.

Lemma fr_words_fill : forall n a b, framed (words_fill n a b).
Proof. induction n; intros; cbn [words_fill]; repeat fstep; apply IHn. Qed.
#[export] Hint Resolve fr_words_fill : frame.

Lemma fr_words_equal : forall n a b, framed (words_equal n a b).
Proof. induction n; intros; cbn [words_equal]; repeat fstep; apply IHn. Qed.
#[export] Hint Resolve fr_words_equal : frame.

Lemma fr_words_find : forall n a b, framed (words_find n a b).
Proof. induction n; intros; cbn [words_find]; repeat fstep; apply IHn. Qed.
#[export] Hint Resolve fr_words_find : frame.

Lemma fr_words_swap : forall n a b, framed (words_swap n a b).
Proof. induction n; intros; cbn [words_swap]; repeat fstep; apply IHn. Qed.
#[export] Hint Resolve fr_words_swap : frame.

Lemma fr_words_reverse_loop : forall n a b, framed (words_reverse_loop n a b).
Proof. induction n; intros; cbn [words_reverse_loop]; repeat fstep; apply IHn. Qed.
#[export] Hint Resolve fr_words_reverse_loop : frame.

Lemma fr_words_transform : forall op n a b, framed (words_transform op n a b).
Proof. intros op. induction n; intros; cbn [words_transform]; repeat fstep; apply IHn. Qed.
#[export] Hint Resolve fr_words_transform : frame.

Lemma fr_words_transform2 : forall op n a b c, framed (words_transform2 op n a b c).
Proof. intros op. induction n; intros; cbn [words_transform2]; repeat fstep; apply IHn. Qed.
#[export] Hint Resolve fr_words_transform2 : frame.

Lemma fr_word_shift_left : forall a b n, framed (word_shift_left a b n).
Proof. frame_by word_shift_left. Qed.
#[export] Hint Resolve fr_word_shift_left : frame.

Lemma fr_word_shift_right : forall a b n, framed (word_shift_right a b n).
Proof. frame_by word_shift_right. Qed.
#[export] Hint Resolve fr_word_shift_right : frame.

Lemma fr_words_reverse : forall a b, framed (words_reverse a b).
Proof. frame_by words_reverse. Qed.
#[export] Hint Resolve fr_words_reverse : frame.

(** The same for functions that read bytes. *)
Definition vbelow (v big : Z -> option Z) : Prop := forall a x, v a = Some x -> big a = Some x.
Definition rframed {A} (r s : res A) : Prop := r = UB OutOfBounds \/ r = s.

Lemma rframed_refl : forall A (r : res A), rframed r r.
Proof. intros A r. right. reflexivity. Qed.

Lemma rframed_bind : forall A B (r s : res A) (f g : A -> res B), rframed r s ->
  (forall a, rframed (f a) (g a)) -> rframed (rbind r f) (rbind s g).
Proof.
  intros A B r s f g [->| ->] H2; [left; reflexivity|].
  destruct s; cbn [rbind]; try (right; reflexivity). apply H2.
Qed.

Create HintDb rframe discriminated.
Ltac gstep :=
  match goal with
  | |- forall _, _ => intro
  | |- rframed ?x ?x => apply rframed_refl
  | |- _ => solve [auto with rframe nocore]
  | |- rframed (rbind _ _) (rbind _ _) => apply rframed_bind
  | |- rframed (match ?x with _ => _ end) (match ?x with _ => _ end) => destruct x
  | |- _ => progress cbv zeta
  end.

Section Views.
  Variables v u : Z -> option Z.
  Hypothesis V : vbelow v u.

  Lemma vf_load_bytes : forall n a, rframed (load_bytes v a n) (load_bytes u a n).
  Proof.
    induction n as [|n IH]; intros a; cbn [load_bytes]; [apply rframed_refl|].
    destruct (v a) as [x|] eqn:E; [|left; reflexivity]. rewrite (V _ _ E).
    repeat gstep.
  Qed.
  Hint Resolve vf_load_bytes : rframe.

  Lemma vf_vload : forall s a k, rframed (vload s v a k) (vload s u a k).
  Proof. intros; unfold vload; repeat gstep. Qed.
  Hint Resolve vf_vload : rframe.

  Lemma vf_csa_load : forall s a k o, rframed (csa_load s v a k o) (csa_load s u a k o).
  Proof. intros; unfold csa_load; repeat gstep. Qed.
  Hint Resolve vf_csa_load : rframe.

  Lemma vf_hs_block : forall s a i h, rframed (hs_block s v a i h) (hs_block s u a i h).
  Proof. intros; unfold hs_block; repeat gstep. Qed.
  Hint Resolve vf_hs_block : rframe.

  Lemma vf_hs_loop : forall s a f limit i cnt h, rframed (hs_loop s v a f limit i cnt h) (hs_loop s u a f limit i cnt h).
  Proof. intros s a. induction f as [|f IH]; intros; cbn [hs_loop]; repeat gstep; apply IH. Qed.
  Hint Resolve vf_hs_loop : rframe.

  Lemma vf_hs_tail : forall s a f size i cnt, rframed (hs_tail s v a f size i cnt) (hs_tail s u a f size i cnt).
  Proof. intros s a. induction f as [|f IH]; intros; cbn [hs_tail]; repeat gstep; apply IH. Qed.
  Hint Resolve vf_hs_tail : rframe.

  Lemma vf_popcnt_simd : forall s a size, rframed (popcnt_simd s v a size) (popcnt_simd s u a size).
  Proof. intros; unfold popcnt_simd; repeat gstep. Qed.
  Hint Resolve vf_popcnt_simd : rframe.

  Lemma vf_pop_words : forall pop a f limit i cnt, rframed (pop_words pop v a f limit i cnt) (pop_words pop u a f limit i cnt).
  Proof. intros pop a. induction f as [|f IH]; intros; cbn [pop_words]; repeat gstep; apply IH. Qed.
  Hint Resolve vf_pop_words : rframe.

  Lemma vf_pop_bytes : forall a f size i cnt, rframed (pop_bytes v a f size i cnt) (pop_bytes u a f size i cnt).
  Proof. intros a. induction f as [|f IH]; intros; cbn [pop_bytes]; repeat gstep; apply IH. Qed.
  Hint Resolve vf_pop_bytes : rframe.

  Lemma vf_simd_part : forall s on lo a size i cnt, rframed (simd_part s on lo v a size i cnt) (simd_part s on lo u a size i cnt).
  Proof. intros; unfold simd_part; repeat gstep. Qed.
  Hint Resolve vf_simd_part : rframe.

  Lemma vf_popcnt_x86 : forall c a size, rframed (popcnt_x86 c v a size) (popcnt_x86 c u a size).
  Proof. intros; unfold popcnt_x86; repeat gstep. Qed.
  Hint Resolve vf_popcnt_x86 : rframe.

  Lemma vf_pop_align : forall a f i cnt, rframed (pop_align v a f i cnt) (pop_align u a f i cnt).
  Proof. intros a. induction f as [|f IH]; intros; cbn [pop_align]; repeat gstep; apply IH. Qed.
  Hint Resolve vf_pop_align : rframe.

  Lemma vf_popcnt_generic : forall a size, rframed (popcnt_generic v a size) (popcnt_generic u a size).
  Proof. intros; unfold popcnt_generic; repeat gstep. Qed.
  Hint Resolve vf_popcnt_generic : rframe.

  Lemma vf_neon_inner : forall f limit i ptr t, rframed (neon_inner v f limit i ptr t) (neon_inner u f limit i ptr t).
  Proof. induction f as [|f IH]; intros; cbn [neon_inner]; repeat gstep; apply IH. Qed.
  Hint Resolve vf_neon_inner : rframe.

  Lemma vf_neon_outer : forall f iters i ptr sum, rframed (neon_outer v f iters i ptr sum) (neon_outer u f iters i ptr sum).
  Proof. induction f as [|f IH]; intros; cbn [neon_outer]; repeat gstep; apply IH. Qed.
  Hint Resolve vf_neon_outer : rframe.

  Lemma vf_popcnt_neon : forall b a size, rframed (popcnt_neon b v a size) (popcnt_neon b u a size).
  Proof. intros; unfold popcnt_neon; repeat gstep. Qed.
  Hint Resolve vf_popcnt_neon : rframe.

  Lemma vf_popcnt : forall t a size, rframed (popcnt t v a size) (popcnt t u a size).
  Proof. intros; unfold popcnt; repeat gstep. Qed.
  Hint Resolve vf_popcnt : rframe.
End Views.

Lemma fr_popcnt_mem : forall t w a size, framed (popcnt_mem t w a size).
Proof.
  intros t w a size m big Hb. unfold popcnt_mem.
  assert (V : vbelow (byte_view w m) (byte_view w big)).
  { intros b x. unfold byte_view. destruct (m (b / (w / 8))) as [y|] eqn:E; [|discriminate].
    rewrite (Hb _ _ E). auto. }
  destruct (vf_popcnt _ _ V t (a * (w / 8)) size) as [E|E]; rewrite E; [exact I|].
  exact (framed_lift Z (popcnt t (byte_view w big) (a * (w / 8)) size) m big Hb).
Qed.
#[export] Hint Resolve fr_popcnt_mem : frame.

Lemma fr_count : forall t w i j b p, framed (count t p w i j b).
Proof. frame_by count. Qed.
#[export] Hint Resolve fr_count : frame.

Lemma fr_bitexch2 : forall w a b s l p, framed (bitexch2 p w a b s l).
Proof. frame_by bitexch2. Qed.
#[export] Hint Resolve fr_bitexch2 : frame.

Lemma fr_exch_step : forall w a b l d k s p, framed (exch_step p w a b l d k s).
Proof. frame_by exch_step. Qed.
#[export] Hint Resolve fr_exch_step : frame.

Lemma fr_bitexch3 : forall w a b s t l p, framed (bitexch3 p w a b s t l).
Proof. frame_by bitexch3. Qed.
#[export] Hint Resolve fr_bitexch3 : frame.

Lemma fr_get_word : forall w i l p, framed (get_word p w i l).
Proof. frame_by get_word. Qed.
#[export] Hint Resolve fr_get_word : frame.

Lemma fr_write_word : forall w x i l p, framed (write_word p w x i l).
Proof. frame_by write_word. Qed.
#[export] Hint Resolve fr_write_word : frame.

Lemma fr_padded_read : forall w i j b p, framed (padded_read p w i j b).
Proof. frame_by padded_read. Qed.
#[export] Hint Resolve fr_padded_read : frame.

Lemma fr_fill : forall w i j b p, framed (fill p w i j b).
Proof. frame_by fill. Qed.
#[export] Hint Resolve fr_fill : frame.

Lemma fr_find : forall w i j b p, framed (find p w i j b).
Proof. frame_by find. Qed.
#[export] Hint Resolve fr_find : frame.

Lemma fr_equal_loop : forall w f a i r p, framed (equal_loop p w f a i r).
Proof. intros w f. induction f; intros; cbn [equal_loop]; repeat fstep; apply IHf. Qed.
#[export] Hint Resolve fr_equal_loop : frame.

Lemma fr_equal_tail : forall w a i r p, framed (equal_tail p w a i r).
Proof. frame_by equal_tail. Qed.
#[export] Hint Resolve fr_equal_tail : frame.

Lemma fr_equal : forall w i j d p, framed (equal p w i j d).
Proof. frame_by equal. Qed.
#[export] Hint Resolve fr_equal : frame.

Lemma fr_copy_loop : forall w f a i r p, framed (copy_loop p w f a i r).
Proof. intros w f. induction f; intros; cbn [copy_loop]; repeat fstep; apply IHf. Qed.
#[export] Hint Resolve fr_copy_loop : frame.

Lemma fr_copy : forall w i j d p, framed (copy p w i j d).
Proof. frame_by copy. Qed.
#[export] Hint Resolve fr_copy : frame.

Lemma fr_copy_backward_loop : forall w f a i r p, framed (copy_backward_loop p w f a i r).
Proof. intros w f. induction f; intros; cbn [copy_backward_loop]; repeat fstep; apply IHf. Qed.
#[export] Hint Resolve fr_copy_backward_loop : frame.

Lemma fr_copy_backward : forall w i j d p, framed (copy_backward p w i j d).
Proof. frame_by copy_backward. Qed.
#[export] Hint Resolve fr_copy_backward : frame.

Lemma fr_transform_loop : forall w op f a i r p, framed (transform_loop p w op f a i r).
Proof. intros w op f. induction f; intros; cbn [transform_loop]; repeat fstep; apply IHf. Qed.
#[export] Hint Resolve fr_transform_loop : frame.

Lemma fr_transform1 : forall w op i j d p, framed (transform1 p w op i j d).
Proof. frame_by transform1. Qed.
#[export] Hint Resolve fr_transform1 : frame.

Lemma fr_transform2_loop : forall w op f a i j r p, framed (transform2_loop p w op f a i j r).
Proof. intros w op f. induction f; intros; cbn [transform2_loop]; repeat fstep; apply IHf. Qed.
#[export] Hint Resolve fr_transform2_loop : frame.

Lemma fr_transform2 : forall w op i j k d p, framed (transform2 p w op i j k d).
Proof. frame_by transform2. Qed.
#[export] Hint Resolve fr_transform2 : frame.

Lemma fr_shift_left_align : forall w i j d n p, framed (shift_left_align p w i j d n).
Proof. frame_by shift_left_align. Qed.
#[export] Hint Resolve fr_shift_left_align : frame.

Lemma fr_shift_left_loop : forall w f a b c o p, framed (shift_left_loop p w f a b c o).
Proof. intros w f. induction f; intros; cbn [shift_left_loop]; repeat fstep; apply IHf. Qed.
#[export] Hint Resolve fr_shift_left_loop : frame.

Lemma fr_shift_left : forall w i j n p, framed (shift_left p w i j n).
Proof. frame_by shift_left. Qed.
#[export] Hint Resolve fr_shift_left : frame.

Lemma fr_shift_right_loop : forall w f a b c o p, framed (shift_right_loop p w f a b c o).
Proof. intros w f. induction f; intros; cbn [shift_right_loop]; repeat fstep; apply IHf. Qed.
#[export] Hint Resolve fr_shift_right_loop : frame.

Lemma fr_shift_right_words : forall w i j k o p, framed (shift_right_words p w i j k o).
Proof. frame_by shift_right_words. Qed.
#[export] Hint Resolve fr_shift_right_words : frame.

Lemma fr_shift_right_main : forall w i j k n p, framed (shift_right_main p w i j k n).
Proof. frame_by shift_right_main. Qed.
#[export] Hint Resolve fr_shift_right_main : frame.

Lemma fr_shift_right : forall w i j n p, framed (shift_right p w i j n).
Proof. frame_by shift_right. Qed.
#[export] Hint Resolve fr_shift_right : frame.

Lemma fr_swap_one_word : forall w i j k p, framed (swap_one_word p w i j k).
Proof. frame_by swap_one_word. Qed.
#[export] Hint Resolve fr_swap_one_word : frame.

Lemma fr_swap_aligned : forall w i j k p, framed (swap_aligned p w i j k).
Proof. frame_by swap_aligned. Qed.
#[export] Hint Resolve fr_swap_aligned : frame.

Lemma fr_swap_loop : forall w n a b c d p, framed (swap_loop p w n a b c d).
Proof. intros w f. induction f; intros; cbn [swap_loop]; repeat fstep; apply IHf. Qed.
#[export] Hint Resolve fr_swap_loop : frame.

Lemma fr_swap_unaligned : forall w i j k p, framed (swap_unaligned p w i j k).
Proof. frame_by swap_unaligned. Qed.
#[export] Hint Resolve fr_swap_unaligned : frame.

Lemma fr_swap_ranges : forall w i j k p, framed (swap_ranges p w i j k).
Proof. frame_by swap_ranges. Qed.
#[export] Hint Resolve fr_swap_ranges : frame.

Lemma fr_words_bitswap : forall w n a p, framed (words_bitswap p w n a).
Proof. intros w f. induction f; intros; cbn [words_bitswap]; repeat fstep; apply IHf. Qed.
#[export] Hint Resolve fr_words_bitswap : frame.

Lemma fr_reverse_shift : forall w i j g e p, framed (reverse_shift p w i j g e).
Proof. frame_by reverse_shift. Qed.
#[export] Hint Resolve fr_reverse_shift : frame.

Lemma fr_reverse : forall w i j p, framed (reverse p w i j).
Proof. frame_by reverse. Qed.
#[export] Hint Resolve fr_reverse : frame.

Lemma fr_rot_up : forall w n i j k p, framed (rot_up p w n i j k).
Proof. intros w f. induction f; intros; cbn [rot_up]; repeat fstep; apply IHf. Qed.
#[export] Hint Resolve fr_rot_up : frame.

Lemma fr_rot_down : forall w n i j k p, framed (rot_down p w n i j k).
Proof. intros w f. induction f; intros; cbn [rot_down]; repeat fstep; apply IHf. Qed.
#[export] Hint Resolve fr_rot_down : frame.

Lemma fr_rot_loop : forall w f i n k r p, framed (rot_loop p w f i n k r).
Proof. intros w f. induction f; intros; cbn [rot_loop]; repeat fstep; apply IHf. Qed.
#[export] Hint Resolve fr_rot_loop : frame.

Lemma fr_rotate_via_raw : forall w i j k p, framed (rotate_via_raw p w i j k).
Proof. frame_by rotate_via_raw. Qed.
#[export] Hint Resolve fr_rotate_via_raw : frame.

Lemma fr_rotate_one_word : forall w i j k p, framed (rotate_one_word p w i j k).
Proof. frame_by rotate_one_word. Qed.
#[export] Hint Resolve fr_rotate_one_word : frame.

Lemma fr_rotate : forall w i j k p, framed (rotate p w i j k).
Proof. frame_by rotate. Qed.
#[export] Hint Resolve fr_rotate : frame.
