(** The accesses of TraceModel are those of the algorithms: every function there, run
    alone, is the function of the same name. *)
From Coq Require Import ZArith Bool List Lia.
From Verif Require Import Base WordOps IterModel PopcntModel AlgModel ShiftModel
  TransformModel SwapModel ReverseModel RotateModel ThreadModel ProofSteps.
From Verif Require TraceModel.
Import ListNotations.
Open Scope Z_scope.

Definition same {A} (t : thread A) (c : M A) : Prop := forall m, alone t m = c m.

Lemma same_lift : forall A (r : res A), same (TraceModel.lift r) (lift r).
Proof. intros A r m. reflexivity. Qed.

Lemma same_ret : forall A (a : A), same (TraceModel.ret a) (ret a).
Proof. intros A a m. reflexivity. Qed.

Lemma same_load : forall a, same (TraceModel.load a) (load a).
Proof. intros a m. unfold load. cbn [alone TraceModel.load]. destruct (m a); reflexivity. Qed.

Lemma same_store : forall a v, same (TraceModel.store a v) (store a v).
Proof. intros a v m. unfold store. cbn [alone TraceModel.store]. destruct (m a); reflexivity. Qed.

Lemma same_bind : forall A B (t : thread A) (c : M A) (f : A -> thread B) (g : A -> M B),
  same t c -> (forall a, same (f a) (g a)) -> same (tbind t f) (bind c g).
Proof.
  intros A B t c f g H1 H2 m. rewrite tbind_alone. unfold bind. rewrite H1.
  destruct (c m) as [[a m1]| | | |]; try reflexivity. apply H2.
Qed.

Create HintDb same discriminated.
#[export] Hint Resolve same_lift same_ret same_load same_store : same.

Ltac sm :=
  match goal with
  | |- forall _, _ => intro
  | |- _ => solve [auto with same nocore]
  | |- same (tbind _ _) (bind _ _) => apply same_bind
  | |- same (match ?x with _ => _ end) _ => destruct x
  | |- _ => progress cbv zeta
  end.

Lemma sm_bitexch_mask : forall a0 a1 msk, same (TraceModel.bitexch_mask a0 a1 msk) (bitexch_mask a0 a1 msk).
Proof. intros; unfold bitexch_mask, TraceModel.bitexch_mask; repeat sm. Qed.
#[export] Hint Resolve sm_bitexch_mask : same.

Lemma sm_bitexch2 : forall p w a0 a1 start len, same (TraceModel.bitexch2 p w a0 a1 start len) (bitexch2 p w a0 a1 start len).
Proof. intros; unfold bitexch2, TraceModel.bitexch2; repeat sm. Qed.
#[export] Hint Resolve sm_bitexch2 : same.

Lemma sm_exch_step : forall p w a0 a1 left d msk start, same (TraceModel.exch_step p w a0 a1 left d msk start) (exch_step p w a0 a1 left d msk start).
Proof. intros; unfold exch_step, TraceModel.exch_step; repeat sm. Qed.
#[export] Hint Resolve sm_exch_step : same.

Lemma sm_bitexch3 : forall p w a0 a1 start0 start1 len, same (TraceModel.bitexch3 p w a0 a1 start0 start1 len) (bitexch3 p w a0 a1 start0 start1 len).
Proof. intros; unfold bitexch3, TraceModel.bitexch3; repeat sm. Qed.
#[export] Hint Resolve sm_bitexch3 : same.

Lemma sm_get_word : forall p w first len, same (TraceModel.get_word p w first len) (get_word p w first len).
Proof. intros; unfold get_word, TraceModel.get_word; repeat sm. Qed.
#[export] Hint Resolve sm_get_word : same.

Lemma sm_write_word : forall p w src dst len, same (TraceModel.write_word p w src dst len) (write_word p w src dst len).
Proof. intros; unfold write_word, TraceModel.write_word; repeat sm. Qed.
#[export] Hint Resolve sm_write_word : same.

Lemma sm_words_copy : forall n src dst, same (TraceModel.words_copy n src dst) (words_copy n src dst).
Proof. induction n; intros; cbn [words_copy TraceModel.words_copy]; repeat sm; apply IHn. Qed.
#[export] Hint Resolve sm_words_copy : same.

Lemma sm_words_copy_backward : forall n src_end dst_end, same (TraceModel.words_copy_backward n src_end dst_end) (words_copy_backward n src_end dst_end).
Proof. induction n; intros; cbn [words_copy_backward TraceModel.words_copy_backward]; repeat sm; apply IHn. Qed.
#[export] Hint Resolve sm_words_copy_backward : same.

Lemma sm_words_fill : forall n dst v, same (TraceModel.words_fill n dst v) (words_fill n dst v).
Proof. induction n; intros; cbn [words_fill TraceModel.words_fill]; repeat sm; apply IHn. Qed.
#[export] Hint Resolve sm_words_fill : same.

Lemma sm_words_equal : forall n a b, same (TraceModel.words_equal n a b) (words_equal n a b).
Proof. induction n; intros; cbn [words_equal TraceModel.words_equal]; repeat sm; apply IHn. Qed.
#[export] Hint Resolve sm_words_equal : same.

Lemma sm_words_find : forall n it skip, same (TraceModel.words_find n it skip) (words_find n it skip).
Proof. induction n; intros; cbn [words_find TraceModel.words_find]; repeat sm; apply IHn. Qed.
#[export] Hint Resolve sm_words_find : same.

Lemma sm_word_shift_left : forall first last n, same (TraceModel.word_shift_left first last n) (word_shift_left first last n).
Proof. intros; unfold word_shift_left, TraceModel.word_shift_left; repeat sm. Qed.
#[export] Hint Resolve sm_word_shift_left : same.

Lemma sm_word_shift_right : forall first last n, same (TraceModel.word_shift_right first last n) (word_shift_right first last n).
Proof. intros; unfold word_shift_right, TraceModel.word_shift_right; repeat sm. Qed.
#[export] Hint Resolve sm_word_shift_right : same.

Lemma sm_fill : forall p w first last bv, same (TraceModel.fill p w first last bv) (fill p w first last bv).
Proof. intros; unfold fill, TraceModel.fill; repeat sm. Qed.
#[export] Hint Resolve sm_fill : same.

Lemma sm_find : forall p w first last bv, same (TraceModel.find p w first last bv) (find p w first last bv).
Proof. intros; unfold find, TraceModel.find; repeat sm. Qed.
#[export] Hint Resolve sm_find : same.

Lemma sm_equal_loop : forall p w fuel it first remaining, same (TraceModel.equal_loop p w fuel it first remaining) (equal_loop p w fuel it first remaining).
Proof. intros p w. induction fuel; intros; cbn [equal_loop TraceModel.equal_loop]; repeat sm; apply IHfuel. Qed.
#[export] Hint Resolve sm_equal_loop : same.

Lemma sm_equal_tail : forall p w it first remaining, same (TraceModel.equal_tail p w it first remaining) (equal_tail p w it first remaining).
Proof. intros; unfold equal_tail, TraceModel.equal_tail; repeat sm. Qed.
#[export] Hint Resolve sm_equal_tail : same.

Lemma sm_equal : forall p w first last d_first, same (TraceModel.equal p w first last d_first) (equal p w first last d_first).
Proof. intros; unfold equal, TraceModel.equal; repeat sm. Qed.
#[export] Hint Resolve sm_equal : same.

Lemma sm_copy_loop : forall p w fuel it first remaining, same (TraceModel.copy_loop p w fuel it first remaining) (copy_loop p w fuel it first remaining).
Proof. intros p w. induction fuel; intros; cbn [copy_loop TraceModel.copy_loop]; repeat sm; apply IHfuel. Qed.
#[export] Hint Resolve sm_copy_loop : same.

Lemma sm_copy : forall p w first last d_first, same (TraceModel.copy p w first last d_first) (copy p w first last d_first).
Proof. intros; unfold copy, TraceModel.copy; repeat sm. Qed.
#[export] Hint Resolve sm_copy : same.

Lemma sm_move : forall p w first last d_first, same (TraceModel.move p w first last d_first) (move p w first last d_first).
Proof. intros; unfold move, TraceModel.move; repeat sm. Qed.
#[export] Hint Resolve sm_move : same.

Lemma sm_copy_backward_loop : forall p w fuel it last remaining, same (TraceModel.copy_backward_loop p w fuel it last remaining) (copy_backward_loop p w fuel it last remaining).
Proof. intros p w. induction fuel; intros; cbn [copy_backward_loop TraceModel.copy_backward_loop]; repeat sm; apply IHfuel. Qed.
#[export] Hint Resolve sm_copy_backward_loop : same.

Lemma sm_copy_backward : forall p w first last d_last, same (TraceModel.copy_backward p w first last d_last) (copy_backward p w first last d_last).
Proof. intros; unfold copy_backward, TraceModel.copy_backward; repeat sm. Qed.
#[export] Hint Resolve sm_copy_backward : same.

Lemma sm_shift_left_align : forall p w first middle d n, same (TraceModel.shift_left_align p w first middle d n) (shift_left_align p w first middle d n).
Proof. intros; unfold shift_left_align, TraceModel.shift_left_align; repeat sm. Qed.
#[export] Hint Resolve sm_shift_left_align : same.

Lemma sm_shift_left_loop : forall p w fuel first_base middle_base last_base offset, same (TraceModel.shift_left_loop p w fuel first_base middle_base last_base offset) (shift_left_loop p w fuel first_base middle_base last_base offset).
Proof. intros p w. induction fuel; intros; cbn [shift_left_loop TraceModel.shift_left_loop]; repeat sm; apply IHfuel. Qed.
#[export] Hint Resolve sm_shift_left_loop : same.

Lemma sm_shift_left : forall p w first last n, same (TraceModel.shift_left p w first last n) (shift_left p w first last n).
Proof. intros; unfold shift_left, TraceModel.shift_left; repeat sm. Qed.
#[export] Hint Resolve sm_shift_left : same.

Lemma sm_shift_right_loop : forall p w fuel first_base lbp mbp offset, same (TraceModel.shift_right_loop p w fuel first_base lbp mbp offset) (shift_right_loop p w fuel first_base lbp mbp offset).
Proof. intros p w. induction fuel; intros; cbn [shift_right_loop TraceModel.shift_right_loop]; repeat sm; apply IHfuel. Qed.
#[export] Hint Resolve sm_shift_right_loop : same.

Lemma sm_shift_right_words : forall p w first last middle offset, same (TraceModel.shift_right_words p w first last middle offset) (shift_right_words p w first last middle offset).
Proof. intros; unfold shift_right_words, TraceModel.shift_right_words; repeat sm. Qed.
#[export] Hint Resolve sm_shift_right_words : same.

Lemma sm_shift_right_main : forall p w first last middle n, same (TraceModel.shift_right_main p w first last middle n) (shift_right_main p w first last middle n).
Proof. intros; unfold shift_right_main, TraceModel.shift_right_main; repeat sm. Qed.
#[export] Hint Resolve sm_shift_right_main : same.

Lemma sm_shift_right : forall p w first last n, same (TraceModel.shift_right p w first last n) (shift_right p w first last n).
Proof. intros; unfold shift_right, TraceModel.shift_right; repeat sm. Qed.
#[export] Hint Resolve sm_shift_right : same.

Lemma sm_words_transform : forall op n src dst, same (TraceModel.words_transform op n src dst) (words_transform op n src dst).
Proof. intros op. induction n; intros; cbn [words_transform TraceModel.words_transform]; repeat sm; apply IHn. Qed.
#[export] Hint Resolve sm_words_transform : same.

Lemma sm_transform_loop : forall p w op fuel it first remaining, same (TraceModel.transform_loop p w op fuel it first remaining) (transform_loop p w op fuel it first remaining).
Proof. intros p w op. induction fuel; intros; cbn [transform_loop TraceModel.transform_loop]; repeat sm; apply IHfuel. Qed.
#[export] Hint Resolve sm_transform_loop : same.

Lemma sm_transform1 : forall p w op first last d_first, same (TraceModel.transform1 p w op first last d_first) (transform1 p w op first last d_first).
Proof. intros; unfold transform1, TraceModel.transform1; repeat sm. Qed.
#[export] Hint Resolve sm_transform1 : same.

Lemma sm_words_transform2 : forall op n src1 src2 dst, same (TraceModel.words_transform2 op n src1 src2 dst) (words_transform2 op n src1 src2 dst).
Proof. intros op. induction n; intros; cbn [words_transform2 TraceModel.words_transform2]; repeat sm; apply IHn. Qed.
#[export] Hint Resolve sm_words_transform2 : same.

Lemma sm_transform2_loop : forall p w op fuel it first1 first2 remaining, same (TraceModel.transform2_loop p w op fuel it first1 first2 remaining) (transform2_loop p w op fuel it first1 first2 remaining).
Proof. intros p w op. induction fuel; intros; cbn [transform2_loop TraceModel.transform2_loop]; repeat sm; apply IHfuel. Qed.
#[export] Hint Resolve sm_transform2_loop : same.

Lemma sm_transform2 : forall p w op first1 last1 first2 d_first, same (TraceModel.transform2 p w op first1 last1 first2 d_first) (transform2 p w op first1 last1 first2 d_first).
Proof. intros; unfold transform2, TraceModel.transform2; repeat sm. Qed.
#[export] Hint Resolve sm_transform2 : same.

Lemma sm_words_swap : forall n a b, same (TraceModel.words_swap n a b) (words_swap n a b).
Proof. induction n; intros; cbn [words_swap TraceModel.words_swap]; repeat sm; apply IHn. Qed.
#[export] Hint Resolve sm_words_swap : same.

Lemma sm_swap_one_word : forall p w first1 last1 first2, same (TraceModel.swap_one_word p w first1 last1 first2) (swap_one_word p w first1 last1 first2).
Proof. intros; unfold swap_one_word, TraceModel.swap_one_word; repeat sm. Qed.
#[export] Hint Resolve sm_swap_one_word : same.

Lemma sm_swap_aligned : forall p w first1 last1 first2, same (TraceModel.swap_aligned p w first1 last1 first2) (swap_aligned p w first1 last1 first2).
Proof. intros; unfold swap_aligned, TraceModel.swap_aligned; repeat sm. Qed.
#[export] Hint Resolve sm_swap_aligned : same.

Lemma sm_swap_loop : forall p w n it1 it2 pos2 digits, same (TraceModel.swap_loop p w n it1 it2 pos2 digits) (swap_loop p w n it1 it2 pos2 digits).
Proof. intros p w. induction n; intros; cbn [swap_loop TraceModel.swap_loop]; repeat sm; apply IHn. Qed.
#[export] Hint Resolve sm_swap_loop : same.

Lemma sm_swap_unaligned : forall p w first1 last1 first2, same (TraceModel.swap_unaligned p w first1 last1 first2) (swap_unaligned p w first1 last1 first2).
Proof. intros; unfold swap_unaligned, TraceModel.swap_unaligned; repeat sm. Qed.
#[export] Hint Resolve sm_swap_unaligned : same.

Lemma sm_swap_ranges : forall p w first1 last1 first2, same (TraceModel.swap_ranges p w first1 last1 first2) (swap_ranges p w first1 last1 first2).
Proof. intros; unfold swap_ranges, TraceModel.swap_ranges; repeat sm. Qed.
#[export] Hint Resolve sm_swap_ranges : same.

Lemma sm_words_reverse_loop : forall n lo hi, same (TraceModel.words_reverse_loop n lo hi) (words_reverse_loop n lo hi).
Proof. induction n; intros; cbn [words_reverse_loop TraceModel.words_reverse_loop]; repeat sm; apply IHn. Qed.
#[export] Hint Resolve sm_words_reverse_loop : same.

Lemma sm_words_reverse : forall a b, same (TraceModel.words_reverse a b) (words_reverse a b).
Proof. intros; unfold words_reverse, TraceModel.words_reverse; repeat sm. Qed.
#[export] Hint Resolve sm_words_reverse : same.

Lemma sm_words_bitswap : forall p w n a, same (TraceModel.words_bitswap p w n a) (words_bitswap p w n a).
Proof. intros p w. induction n; intros; cbn [words_bitswap TraceModel.words_bitswap]; repeat sm; apply IHn. Qed.
#[export] Hint Resolve sm_words_bitswap : same.

Lemma sm_reverse_shift : forall p w first last gap e, same (TraceModel.reverse_shift p w first last gap e) (reverse_shift p w first last gap e).
Proof. intros; unfold reverse_shift, TraceModel.reverse_shift; repeat sm. Qed.
#[export] Hint Resolve sm_reverse_shift : same.

Lemma sm_reverse : forall p w first last, same (TraceModel.reverse p w first last) (reverse p w first last).
Proof. intros; unfold reverse, TraceModel.reverse; repeat sm. Qed.
#[export] Hint Resolve sm_reverse : same.

Lemma sm_rot_up : forall pl w n p q k, same (TraceModel.rot_up pl w n p q k) (rot_up pl w n p q k).
Proof. intros pl w. induction n; intros; cbn [rot_up TraceModel.rot_up]; repeat sm; apply IHn. Qed.
#[export] Hint Resolve sm_rot_up : same.

Lemma sm_rot_down : forall pl w n p q k, same (TraceModel.rot_down pl w n p q k) (rot_down pl w n p q k).
Proof. intros pl w. induction n; intros; cbn [rot_down TraceModel.rot_down]; repeat sm; apply IHn. Qed.
#[export] Hint Resolve sm_rot_down : same.

Lemma sm_rot_loop : forall pl w fuel p n k r, same (TraceModel.rot_loop pl w fuel p n k r) (rot_loop pl w fuel p n k r).
Proof. intros pl w. induction fuel; intros; cbn [rot_loop TraceModel.rot_loop]; repeat sm; apply IHfuel. Qed.
#[export] Hint Resolve sm_rot_loop : same.

Lemma sm_rotate_via_raw : forall pl w first n_first last, same (TraceModel.rotate_via_raw pl w first n_first last) (rotate_via_raw pl w first n_first last).
Proof. intros; unfold rotate_via_raw, TraceModel.rotate_via_raw; repeat sm. Qed.
#[export] Hint Resolve sm_rotate_via_raw : same.

Lemma sm_rotate_one_word : forall pl w first n_first last, same (TraceModel.rotate_one_word pl w first n_first last) (rotate_one_word pl w first n_first last).
Proof. intros; unfold rotate_one_word, TraceModel.rotate_one_word; repeat sm. Qed.
#[export] Hint Resolve sm_rotate_one_word : same.

Lemma sm_rotate : forall pl w first n_first last, same (TraceModel.rotate pl w first n_first last) (rotate pl w first n_first last).
Proof. intros; unfold rotate, TraceModel.rotate; repeat sm. Qed.
#[export] Hint Resolve sm_rotate : same.
