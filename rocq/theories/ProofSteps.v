(** Every algorithm is a sequence of reads and writes of words: threads that carry out
    the calls of ThreadModel. *)
From Coq Require Import ZArith Bool List Lia.
From Verif Require Import Base WordOps IterModel RefModel PopcntModel AlgModel ShiftModel
  TransformModel SwapModel ReverseModel RotateModel ThreadModel.
Import ListNotations.
Open Scope Z_scope.

(** A thread with the effect of [c], without writes if [ro]. *)
Definition steps {A} (ro : bool) (c : M A) : Type :=
  { t : thread A | (ro = true -> reads_only t) /\ forall m, alone t m = c m }.

Lemma tbind_ro : forall A B (t : thread A) (f : A -> thread B), reads_only t ->
  (forall a, reads_only (f a)) -> reads_only (tbind t f).
Proof.
  intros A B t f H Hf. induction H as [r|a k H IH]; cbn [tbind].
  - destruct r; try constructor. apply Hf.
  - constructor. exact IH.
Qed.

Lemma tbind_alone : forall A B (t : thread A) (f : A -> thread B) m,
  alone (tbind t f) m = bind (alone t) (fun a => alone (f a)) m.
Proof.
  intros A B t f. unfold bind. induction t as [r|a k IH|a v k IH]; intros m.
  - destruct r; reflexivity.
  - cbn [tbind alone]. destruct (m a); [apply IH|reflexivity].
  - cbn [tbind alone]. destruct (m a); [apply IH|reflexivity].
Qed.

Definition steps_ret {A} ro (a : A) : steps ro (ret a).
Proof. exists (Done (Ok a)). split; [constructor|reflexivity]. Defined.

Definition steps_lift {A} ro (r : res A) : steps ro (lift r).
Proof. exists (Done r). split; [constructor|reflexivity]. Defined.

Definition steps_bind {A B} ro (c : M A) (f : A -> M B) : steps ro c ->
  (forall a, steps ro (f a)) -> steps ro (bind c f).
Proof.
  intros [t [T1 T2]] F. exists (tbind t (fun a => proj1_sig (F a))). split.
  - intros E. apply tbind_ro; [auto|]. intros a. destruct (F a) as [u [U1 U2]]. apply U1. exact E.
  - intros m. rewrite tbind_alone. unfold bind. rewrite T2.
    destruct (c m) as [[a m1]| | | |]; try reflexivity. destruct (F a) as [u [U1 U2]]. apply U2.
Defined.

Definition steps_load ro a : steps ro (load a).
Proof.
  exists (Read a (fun x => Done (Ok x))). split; [constructor; constructor|].
  intros m. unfold load. cbn [alone]. destruct (m a); reflexivity.
Defined.

Definition steps_store a v : steps false (store a v).
Proof.
  exists (Write a v (Done (Ok tt))). split; [discriminate|].
  intros m. unfold store. cbn [alone]. destruct (m a); reflexivity.
Defined.

Create HintDb steps discriminated.
#[export] Hint Resolve steps_ret steps_lift steps_load steps_store : steps.

Ltac sstep :=
  match goal with
  | |- forall _, _ => intro
  | |- _ => solve [auto with steps nocore]
  | |- steps _ (bind _ _) => apply steps_bind
  | |- steps _ (match ?x with _ => _ end) => destruct x
  | |- _ => progress cbv zeta
  end.
Ltac steps_by f := intros; unfold f; repeat sstep.

Definition st_bitexch_mask : forall a b k, steps false (bitexch_mask a b k).
Proof. steps_by bitexch_mask. Defined.
#[export] Hint Resolve st_bitexch_mask : steps.

Definition st_words_copy : forall n a b, steps false (words_copy n a b).
Proof. induction n; intros; cbn [words_copy]; repeat sstep; apply IHn. Defined.
#[export] Hint Resolve st_words_copy : steps.

Definition st_words_copy_backward : forall n a b, steps false (words_copy_backward n a b).
Proof. induction n; intros; cbn [words_copy_backward]; repeat sstep; apply IHn. Defined.
#[export] Hint Resolve st_words_copy_backward : steps.

Definition st_words_fill : forall n a b, steps false (words_fill n a b).
Proof. induction n; intros; cbn [words_fill]; repeat sstep; apply IHn. Defined.
#[export] Hint Resolve st_words_fill : steps.

Definition st_words_equal : forall n a b ro, steps ro (words_equal n a b).
Proof. induction n; intros; cbn [words_equal]; repeat sstep; apply IHn. Defined.
#[export] Hint Resolve st_words_equal : steps.

Definition st_words_find : forall n a b ro, steps ro (words_find n a b).
Proof. induction n; intros; cbn [words_find]; repeat sstep; apply IHn. Defined.
#[export] Hint Resolve st_words_find : steps.

Definition st_words_swap : forall n a b, steps false (words_swap n a b).
Proof. induction n; intros; cbn [words_swap]; repeat sstep; apply IHn. Defined.
#[export] Hint Resolve st_words_swap : steps.

Definition st_words_reverse_loop : forall n a b, steps false (words_reverse_loop n a b).
Proof. induction n; intros; cbn [words_reverse_loop]; repeat sstep; apply IHn. Defined.
#[export] Hint Resolve st_words_reverse_loop : steps.

Definition st_words_transform : forall op n a b, steps false (words_transform op n a b).
Proof. intros op. induction n; intros; cbn [words_transform]; repeat sstep; apply IHn. Defined.
#[export] Hint Resolve st_words_transform : steps.

Definition st_words_transform2 : forall op n a b c, steps false (words_transform2 op n a b c).
Proof. intros op. induction n; intros; cbn [words_transform2]; repeat sstep; apply IHn. Defined.
#[export] Hint Resolve st_words_transform2 : steps.

Definition st_word_shift_left : forall a b n, steps false (word_shift_left a b n).
Proof. steps_by word_shift_left. Defined.
#[export] Hint Resolve st_word_shift_left : steps.

Definition st_word_shift_right : forall a b n, steps false (word_shift_right a b n).
Proof. steps_by word_shift_right. Defined.
#[export] Hint Resolve st_word_shift_right : steps.

Definition st_words_reverse : forall a b, steps false (words_reverse a b).
Proof. steps_by words_reverse. Defined.
#[export] Hint Resolve st_words_reverse : steps.

(** Functions that read bytes. *)
Create HintDb rsteps discriminated.
Section Bytes.
  Variable w : Z.

  Definition rsteps {A} (f : (Z -> option Z) -> res A) : Type :=
    { t : thread A | reads_only t /\ forall m, alone t m = lift (f (byte_view w m)) m }.

  Definition rsteps_const {A} (r : res A) : rsteps (fun _ => r).
  Proof. exists (Done r). split; [constructor|reflexivity]. Defined.

  Definition rsteps_bind {A B} (f : (Z -> option Z) -> res A) (g : A -> (Z -> option Z) -> res B) :
    rsteps f -> (forall a, rsteps (g a)) -> rsteps (fun v => rbind (f v) (fun a => g a v)).
  Proof.
    intros [t [T1 T2]] G. exists (tbind t (fun a => proj1_sig (G a))). split.
    - apply tbind_ro; [assumption|]. intros a. destruct (G a) as [u [U1 U2]]. exact U1.
    - intros m. rewrite tbind_alone. unfold bind. rewrite T2.
      destruct (f (byte_view w m)) as [a| | | |]; try reflexivity. cbn [lift rbind].
      destruct (G a) as [u [U1 U2]]. apply U2.
  Defined.

  Ltac rstep :=
    match goal with
    | |- forall _, _ => intro
    | |- rsteps (fun v => ?r) => exact (rsteps_const r)
    | |- _ => solve [auto with rsteps nocore]
    | |- rsteps (fun v => rbind _ _) => apply rsteps_bind
    | |- rsteps (fun v => match ?x with _ => _ end) => destruct x
    | |- _ => progress cbv zeta
    end.

  Definition rs_load_bytes : forall n a, rsteps (fun v => load_bytes v a n).
  Proof.
    induction n as [|n IH]; intros a; cbn [load_bytes]; [apply rsteps_const|].
    exists (Read (a / (w / 8)) (fun x => tbind (proj1_sig (IH (a + 1)))
      (fun r => Done (Ok (byte_of x (a mod (w / 8)) + 256 * r))))).
    destruct (IH (a + 1)) as [t [T1 T2]]. cbn [proj1_sig]. split.
    - constructor. intros x. apply tbind_ro; [exact T1|constructor].
    - intros m. cbn [alone]. unfold byte_view at 1. destruct (m (a / (w / 8))) as [x|]; [|reflexivity].
      rewrite tbind_alone. unfold bind. rewrite T2.
      destruct (load_bytes (byte_view w m) (a + 1) n); reflexivity.
  Defined.
  Hint Resolve rs_load_bytes : rsteps.

  Definition rs_vload : forall s a k, rsteps (fun v => vload s v a k).
  Proof. intros; unfold vload; repeat rstep. Defined.
  Hint Resolve rs_vload : rsteps.

  Definition rs_csa_load : forall s a k o, rsteps (fun v => csa_load s v a k o).
  Proof. intros; unfold csa_load; repeat rstep. Defined.
  Hint Resolve rs_csa_load : rsteps.

  Definition rs_hs_block : forall s a i h, rsteps (fun v => hs_block s v a i h).
  Proof. intros; unfold hs_block; repeat rstep. Defined.
  Hint Resolve rs_hs_block : rsteps.

  Definition rs_hs_loop : forall s a f limit i cnt h, rsteps (fun v => hs_loop s v a f limit i cnt h).
  Proof. intros s a. induction f as [|f IH]; intros; cbn [hs_loop]; repeat rstep; apply IH. Defined.
  Hint Resolve rs_hs_loop : rsteps.

  Definition rs_hs_tail : forall s a f size i cnt, rsteps (fun v => hs_tail s v a f size i cnt).
  Proof. intros s a. induction f as [|f IH]; intros; cbn [hs_tail]; repeat rstep; apply IH. Defined.
  Hint Resolve rs_hs_tail : rsteps.

  Definition rs_popcnt_simd : forall s a size, rsteps (fun v => popcnt_simd s v a size).
  Proof. intros; unfold popcnt_simd; repeat rstep. Defined.
  Hint Resolve rs_popcnt_simd : rsteps.

  Definition rs_pop_words : forall pop a f limit i cnt, rsteps (fun v => pop_words pop v a f limit i cnt).
  Proof. intros pop a. induction f as [|f IH]; intros; cbn [pop_words]; repeat rstep; apply IH. Defined.
  Hint Resolve rs_pop_words : rsteps.

  Definition rs_pop_bytes : forall a f size i cnt, rsteps (fun v => pop_bytes v a f size i cnt).
  Proof. intros a. induction f as [|f IH]; intros; cbn [pop_bytes]; repeat rstep; apply IH. Defined.
  Hint Resolve rs_pop_bytes : rsteps.

  Definition rs_simd_part : forall s on lo a size i cnt, rsteps (fun v => simd_part s on lo v a size i cnt).
  Proof. intros; unfold simd_part; repeat rstep. Defined.
  Hint Resolve rs_simd_part : rsteps.

  Definition rs_popcnt_x86 : forall c a size, rsteps (fun v => popcnt_x86 c v a size).
  Proof. intros; unfold popcnt_x86; repeat rstep. Defined.
  Hint Resolve rs_popcnt_x86 : rsteps.

  Definition rs_pop_align : forall a f i cnt, rsteps (fun v => pop_align v a f i cnt).
  Proof. intros a. induction f as [|f IH]; intros; cbn [pop_align]; repeat rstep; apply IH. Defined.
  Hint Resolve rs_pop_align : rsteps.

  Definition rs_popcnt_generic : forall a size, rsteps (fun v => popcnt_generic v a size).
  Proof. intros; unfold popcnt_generic; repeat rstep. Defined.
  Hint Resolve rs_popcnt_generic : rsteps.

  Definition rs_neon_inner : forall f limit i ptr t, rsteps (fun v => neon_inner v f limit i ptr t).
  Proof. induction f as [|f IH]; intros; cbn [neon_inner]; repeat rstep; apply IH. Defined.
  Hint Resolve rs_neon_inner : rsteps.

  Definition rs_neon_outer : forall f iters i ptr sum, rsteps (fun v => neon_outer v f iters i ptr sum).
  Proof. induction f as [|f IH]; intros; cbn [neon_outer]; repeat rstep; apply IH. Defined.
  Hint Resolve rs_neon_outer : rsteps.

  Definition rs_popcnt_neon : forall b a size, rsteps (fun v => popcnt_neon b v a size).
  Proof. intros; unfold popcnt_neon; repeat rstep. Defined.
  Hint Resolve rs_popcnt_neon : rsteps.

  Definition rs_popcnt : forall t a size, rsteps (fun v => popcnt t v a size).
  Proof. intros; unfold popcnt; repeat rstep. Defined.
  Hint Resolve rs_popcnt : rsteps.
End Bytes.

Definition st_popcnt_mem : forall t w a s ro, steps ro (popcnt_mem t w a s).
Proof.
  intros t w a s ro. destruct (rs_popcnt w t (a * (w / 8)) s) as [u [U1 U2]].
  exists u. split; [auto|]. intros m. rewrite U2. reflexivity.
Defined.
#[export] Hint Resolve st_popcnt_mem : steps.

Definition st_count : forall t w i j b p ro, steps ro (count t p w i j b).
Proof. steps_by count. Defined.
#[export] Hint Resolve st_count : steps.

Definition st_bitexch2 : forall w a b s l p, steps false (bitexch2 p w a b s l).
Proof. steps_by bitexch2. Defined.
#[export] Hint Resolve st_bitexch2 : steps.

Definition st_exch_step : forall w a b l d k s p, steps false (exch_step p w a b l d k s).
Proof. steps_by exch_step. Defined.
#[export] Hint Resolve st_exch_step : steps.

Definition st_bitexch3 : forall w a b s t l p, steps false (bitexch3 p w a b s t l).
Proof. steps_by bitexch3. Defined.
#[export] Hint Resolve st_bitexch3 : steps.

Definition st_get_word : forall w i l p ro, steps ro (get_word p w i l).
Proof. steps_by get_word. Defined.
#[export] Hint Resolve st_get_word : steps.

Definition st_write_word : forall w x i l p, steps false (write_word p w x i l).
Proof. steps_by write_word. Defined.
#[export] Hint Resolve st_write_word : steps.

Definition st_padded_read : forall w i j b p ro, steps ro (padded_read p w i j b).
Proof. steps_by padded_read. Defined.
#[export] Hint Resolve st_padded_read : steps.

Definition st_fill : forall w i j b p, steps false (fill p w i j b).
Proof. steps_by fill. Defined.
#[export] Hint Resolve st_fill : steps.

Definition st_find : forall w i j b p ro, steps ro (find p w i j b).
Proof. steps_by find. Defined.
#[export] Hint Resolve st_find : steps.

Definition st_equal_loop : forall w f a i r p ro, steps ro (equal_loop p w f a i r).
Proof. intros w f. induction f; intros; cbn [equal_loop]; repeat sstep; apply IHf. Defined.
#[export] Hint Resolve st_equal_loop : steps.

Definition st_equal_tail : forall w a i r p ro, steps ro (equal_tail p w a i r).
Proof. steps_by equal_tail. Defined.
#[export] Hint Resolve st_equal_tail : steps.

Definition st_equal : forall w i j d p ro, steps ro (equal p w i j d).
Proof. steps_by equal. Defined.
#[export] Hint Resolve st_equal : steps.

Definition st_copy_loop : forall w f a i r p, steps false (copy_loop p w f a i r).
Proof. intros w f. induction f; intros; cbn [copy_loop]; repeat sstep; apply IHf. Defined.
#[export] Hint Resolve st_copy_loop : steps.

Definition st_copy : forall w i j d p, steps false (copy p w i j d).
Proof. steps_by copy. Defined.
#[export] Hint Resolve st_copy : steps.

Definition st_copy_backward_loop : forall w f a i r p, steps false (copy_backward_loop p w f a i r).
Proof. intros w f. induction f; intros; cbn [copy_backward_loop]; repeat sstep; apply IHf. Defined.
#[export] Hint Resolve st_copy_backward_loop : steps.

Definition st_copy_backward : forall w i j d p, steps false (copy_backward p w i j d).
Proof. steps_by copy_backward. Defined.
#[export] Hint Resolve st_copy_backward : steps.

Definition st_transform_loop : forall w op f a i r p, steps false (transform_loop p w op f a i r).
Proof. intros w op f. induction f; intros; cbn [transform_loop]; repeat sstep; apply IHf. Defined.
#[export] Hint Resolve st_transform_loop : steps.

Definition st_transform1 : forall w op i j d p, steps false (transform1 p w op i j d).
Proof. steps_by transform1. Defined.
#[export] Hint Resolve st_transform1 : steps.

Definition st_transform2_loop : forall w op f a i j r p, steps false (transform2_loop p w op f a i j r).
Proof. intros w op f. induction f; intros; cbn [transform2_loop]; repeat sstep; apply IHf. Defined.
#[export] Hint Resolve st_transform2_loop : steps.

Definition st_transform2 : forall w op i j k d p, steps false (transform2 p w op i j k d).
Proof. steps_by transform2. Defined.
#[export] Hint Resolve st_transform2 : steps.

Definition st_shift_left_align : forall w i j d n p, steps false (shift_left_align p w i j d n).
Proof. steps_by shift_left_align. Defined.
#[export] Hint Resolve st_shift_left_align : steps.

Definition st_shift_left_loop : forall w f a b c o p, steps false (shift_left_loop p w f a b c o).
Proof. intros w f. induction f; intros; cbn [shift_left_loop]; repeat sstep; apply IHf. Defined.
#[export] Hint Resolve st_shift_left_loop : steps.

Definition st_shift_left : forall w i j n p, steps false (shift_left p w i j n).
Proof. steps_by shift_left. Defined.
#[export] Hint Resolve st_shift_left : steps.

Definition st_shift_right_loop : forall w f a b c o p, steps false (shift_right_loop p w f a b c o).
Proof. intros w f. induction f; intros; cbn [shift_right_loop]; repeat sstep; apply IHf. Defined.
#[export] Hint Resolve st_shift_right_loop : steps.

Definition st_shift_right_words : forall w i j k o p, steps false (shift_right_words p w i j k o).
Proof. steps_by shift_right_words. Defined.
#[export] Hint Resolve st_shift_right_words : steps.

Definition st_shift_right_main : forall w i j k n p, steps false (shift_right_main p w i j k n).
Proof. steps_by shift_right_main. Defined.
#[export] Hint Resolve st_shift_right_main : steps.

Definition st_shift_right : forall w i j n p, steps false (shift_right p w i j n).
Proof. steps_by shift_right. Defined.
#[export] Hint Resolve st_shift_right : steps.

Definition st_swap_one_word : forall w i j k p, steps false (swap_one_word p w i j k).
Proof. steps_by swap_one_word. Defined.
#[export] Hint Resolve st_swap_one_word : steps.

Definition st_swap_aligned : forall w i j k p, steps false (swap_aligned p w i j k).
Proof. steps_by swap_aligned. Defined.
#[export] Hint Resolve st_swap_aligned : steps.

Definition st_swap_loop : forall w n a b c d p, steps false (swap_loop p w n a b c d).
Proof. intros w f. induction f; intros; cbn [swap_loop]; repeat sstep; apply IHf. Defined.
#[export] Hint Resolve st_swap_loop : steps.

Definition st_swap_unaligned : forall w i j k p, steps false (swap_unaligned p w i j k).
Proof. steps_by swap_unaligned. Defined.
#[export] Hint Resolve st_swap_unaligned : steps.

Definition st_swap_ranges : forall w i j k p, steps false (swap_ranges p w i j k).
Proof. steps_by swap_ranges. Defined.
#[export] Hint Resolve st_swap_ranges : steps.

Definition st_words_bitswap : forall w n a p, steps false (words_bitswap p w n a).
Proof. intros w f. induction f; intros; cbn [words_bitswap]; repeat sstep; apply IHf. Defined.
#[export] Hint Resolve st_words_bitswap : steps.

Definition st_reverse_shift : forall w i j g e p, steps false (reverse_shift p w i j g e).
Proof. steps_by reverse_shift. Defined.
#[export] Hint Resolve st_reverse_shift : steps.

Definition st_reverse : forall w i j p, steps false (reverse p w i j).
Proof. steps_by reverse. Defined.
#[export] Hint Resolve st_reverse : steps.

Definition st_rot_up : forall w n i j k p, steps false (rot_up p w n i j k).
Proof. intros w f. induction f; intros; cbn [rot_up]; repeat sstep; apply IHf. Defined.
#[export] Hint Resolve st_rot_up : steps.

Definition st_rot_down : forall w n i j k p, steps false (rot_down p w n i j k).
Proof. intros w f. induction f; intros; cbn [rot_down]; repeat sstep; apply IHf. Defined.
#[export] Hint Resolve st_rot_down : steps.

Definition st_rot_loop : forall w f i n k r p, steps false (rot_loop p w f i n k r).
Proof. intros w f. induction f; intros; cbn [rot_loop]; repeat sstep; apply IHf. Defined.
#[export] Hint Resolve st_rot_loop : steps.

Definition st_rotate_via_raw : forall w i j k p, steps false (rotate_via_raw p w i j k).
Proof. steps_by rotate_via_raw. Defined.
#[export] Hint Resolve st_rotate_via_raw : steps.

Definition st_rotate_one_word : forall w i j k p, steps false (rotate_one_word p w i j k).
Proof. steps_by rotate_one_word. Defined.
#[export] Hint Resolve st_rotate_one_word : steps.

Definition st_rotate : forall w i j k p, steps false (rotate p w i j k).
Proof. steps_by rotate. Defined.
#[export] Hint Resolve st_rotate : steps.

Definition st_move : forall w i j d p, steps false (move p w i j d).
Proof. steps_by move. Defined.
#[export] Hint Resolve st_move : steps.

Definition st_ref_get : forall r ro, steps ro (ref_get r).
Proof. steps_by @ref_get. Defined.
#[export] Hint Resolve st_ref_get : steps.

Definition st_ref_flip : forall r, steps false (ref_flip r).
Proof. steps_by ref_flip. Defined.
#[export] Hint Resolve st_ref_flip : steps.

Definition st_ref_set1 : forall r, steps false (ref_set1 r).
Proof. steps_by ref_set1. Defined.
#[export] Hint Resolve st_ref_set1 : steps.

Definition st_ref_reset : forall w r, steps false (ref_reset w r).
Proof. steps_by ref_reset. Defined.
#[export] Hint Resolve st_ref_reset : steps.

Definition st_ref_assign_val : forall w r b, steps false (ref_assign_val w r b).
Proof. steps_by ref_assign_val. Defined.
#[export] Hint Resolve st_ref_assign_val : steps.

Definition st_ref_swap : forall r s, steps false (ref_swap r s).
Proof. steps_by ref_swap. Defined.
#[export] Hint Resolve st_ref_swap : steps.

Definition st_run_call : forall p w c, steps (nonmodifying c) (run_call p w c).
Proof. intros p w c. destruct c; cbn [run_call nonmodifying]; repeat sstep. Defined.

(** The thread this gives. *)
Definition thread_of (p : policy) (w : Z) (c : call) : thread answer :=
  proj1_sig (st_run_call p w c).
