(** The bounds as stated in Properties_Cost.v. *)
From Coq Require Import ZArith Bool List Lia.
From Verif Require Import Base WordOps IterModel PopcntModel Spec AlgModel ShiftModel
  TransformModel SwapModel ReverseModel RotateModel ThreadModel SpecCost ProofTrace
  ProofCost ProofCost2 ProofCost3 ProofCost4.
From Verif Require TraceModel.
Import ListNotations.
Open Scope Z_scope.

Lemma same_calls : forall p w m first n_first last first2 d b n op op2,
  alone (TraceModel.fill p w first last b) m = fill p w first last b m /\
  alone (TraceModel.find p w first last b) m = find p w first last b m /\
  alone (TraceModel.equal p w first last d) m = equal p w first last d m /\
  alone (TraceModel.copy p w first last d) m = copy p w first last d m /\
  alone (TraceModel.move p w first last d) m = move p w first last d m /\
  alone (TraceModel.copy_backward p w first last d) m = copy_backward p w first last d m /\
  alone (TraceModel.transform1 p w op first last d) m = transform1 p w op first last d m /\
  alone (TraceModel.transform2 p w op2 first last first2 d) m =
    transform2 p w op2 first last first2 d m /\
  alone (TraceModel.swap_ranges p w first last first2) m = swap_ranges p w first last first2 m /\
  alone (TraceModel.shift_left p w first last n) m = shift_left p w first last n m /\
  alone (TraceModel.shift_right p w first last n) m = shift_right p w first last n m /\
  alone (TraceModel.reverse p w first last) m = reverse p w first last m /\
  alone (TraceModel.rotate p w first n_first last) m = rotate p w first n_first last m.
Proof.
  intros.
  split; [exact (sm_fill p w first last b m)|].
  split; [exact (sm_find p w first last b m)|].
  split; [exact (sm_equal p w first last d m)|].
  split; [exact (sm_copy p w first last d m)|].
  split; [exact (sm_move p w first last d m)|].
  split; [exact (sm_copy_backward p w first last d m)|].
  split; [exact (sm_transform1 p w op first last d m)|].
  split; [exact (sm_transform2 p w op2 first last first2 d m)|].
  split; [exact (sm_swap_ranges p w first last first2 m)|].
  split; [exact (sm_shift_left p w first last n m)|].
  split; [exact (sm_shift_right p w first last n m)|].
  split; [exact (sm_reverse p w first last m)|].
  exact (sm_rotate p w first n_first last m).
Qed.

Lemma fill_cost : forall p w first last b, valid_w w -> valid_it w first -> valid_it w last ->
  0 <= addr w last - addr w first <= max_bits ->
  at_most (TraceModel.fill p w first last b) 2 (words_of w (addr w first) (addr w last)).
Proof. intros. eapply within_at_most, c_fill; assumption. Qed.

Lemma find_cost : forall p w first last b, valid_w w -> valid_it w first -> valid_it w last ->
  0 <= addr w last - addr w first <= max_bits ->
  at_most (TraceModel.find p w first last b) (words_of w (addr w first) (addr w last) + 1) 0.
Proof. intros. eapply within_at_most, c_find; assumption. Qed.

Lemma equal_cost : forall p w first last d, valid_w w -> valid_it w first -> valid_it w last ->
  valid_it w d -> 0 <= addr w last - addr w first <= max_bits ->
  let T := words_of w (addr w d) (addr w d + (addr w last - addr w first)) in
  at_most (TraceModel.equal p w first last d) (3 * T) 0.
Proof. intros. eapply within_at_most, c_equal; assumption. Qed.

Lemma copy_cost : forall p w first last d, valid_w w -> valid_it w first -> valid_it w last ->
  valid_it w d -> 0 <= addr w last - addr w first <= max_bits ->
  let T := words_of w (addr w d) (addr w d + (addr w last - addr w first)) in
  at_most (TraceModel.copy p w first last d) (3 * T) T /\
  at_most (TraceModel.move p w first last d) (3 * T) T.
Proof. intros. split; eapply within_at_most, c_copy; assumption. Qed.

Lemma copy_backward_cost : forall p w first last d, valid_w w -> valid_it w first ->
  valid_it w last -> valid_it w d -> 0 <= addr w last - addr w first <= max_bits ->
  let T := words_of w (addr w d - (addr w last - addr w first)) (addr w d) in
  at_most (TraceModel.copy_backward p w first last d) (3 * T) T.
Proof. intros. eapply within_at_most, c_copy_backward; assumption. Qed.

Lemma transform_cost : forall p w op first last d, valid_w w -> valid_it w first ->
  valid_it w last -> valid_it w d -> 0 <= addr w last - addr w first <= max_bits ->
  let T := words_of w (addr w d) (addr w d + (addr w last - addr w first)) in
  at_most (TraceModel.transform1 p w op first last d) (3 * T) T.
Proof. intros. eapply within_at_most, c_transform1; assumption. Qed.

Lemma transform2_cost : forall p w op first last first2 d, valid_w w -> valid_it w first ->
  valid_it w last -> valid_it w d -> 0 <= addr w last - addr w first <= max_bits ->
  let T := words_of w (addr w d) (addr w d + (addr w last - addr w first)) in
  at_most (TraceModel.transform2 p w op first last first2 d) (5 * T) T.
Proof. intros. eapply within_at_most, c_transform2; assumption. Qed.

Lemma swap_ranges_cost : forall p w first last first2, valid_w w -> valid_it w first ->
  valid_it w last -> 0 <= addr w last - addr w first <= max_bits ->
  let T := words_of w (addr w first) (addr w last) in
  at_most (TraceModel.swap_ranges p w first last first2) (12 * T) (6 * T).
Proof. intros. eapply within_at_most, c_swap_ranges; assumption. Qed.

Lemma shift_cost : forall p w first last n, valid_w w -> valid_it w first ->
  valid_it w last -> 0 <= addr w last - addr w first <= max_bits ->
  let T := words_of w (addr w first) (addr w last) in
  at_most (TraceModel.shift_left p w first last n) (2 * T + 12) (T + 5) /\
  at_most (TraceModel.shift_right p w first last n) (2 * T + 10) (T + 5).
Proof.
  intros p w first last n Vw V1 V2 H T. unfold max_bits in H. split; eapply within_at_most.
  - apply c_shift_left; assumption || lia.
  - apply c_shift_right; assumption || lia.
Qed.

Lemma reverse_cost : forall p w first last, valid_w w -> valid_it w first ->
  valid_it w last -> 0 <= addr w last - addr w first <= max_bits ->
  let T := words_of w (addr w first) (addr w last) in
  at_most (TraceModel.reverse p w first last) (4 * T + 16) (3 * T + 7).
Proof. intros. eapply within_at_most, c_reverse; assumption. Qed.

Lemma rotate_cost : forall p w first n_first last, valid_w w -> valid_it w first ->
  valid_it w n_first -> valid_it w last -> addr w first <= addr w n_first <= addr w last ->
  addr w last - addr w first <= max_bits ->
  let T := words_of w (addr w first) (addr w last) in
  at_most (TraceModel.rotate p w first n_first last) (60 * T + 20) (30 * T + 10).
Proof. intros. eapply within_at_most, c_rotate; assumption. Qed.
