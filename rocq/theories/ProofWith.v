(** The two shifts as parameters of reverse and rotate. *)
From Coq Require Import ZArith Bool List Lia.
From Verif Require Import Base WordOps IterModel AlgModel ShiftModel SwapModel
  ReverseModel RotateModel HwyModel HwyAlgModel Spec SpecHwy
  ProofBase ProofIter ProofWord ProofShift ProofHwy.
Open Scope Z_scope.
Ltac Zify.zify_post_hook ::= idtac.

(** What the callers use of shift_left. *)
Definition good_left (p : policy) (w : Z) (sl : iter -> iter -> Z -> M iter) : Prop :=
  forall first last n m (Q : iter -> mem -> Prop),
  let d := addr w last - addr w first in
  valid_w w -> valid_it w first -> valid_it w last -> wf_mem w m ->
  0 < n < d -> d <= 2 ^ 62 ->
  mapped w m (addr w first) (addr w last) ->
  (ip first <> 0 \/ ip last <> 0 \/ ib last - ib first <> 1 \/
   full_blend_defined p w) ->
  (forall r m', valid_it w r -> addr w r = addr w last - n ->
     shifted_left w m m' (addr w first) (addr w last) n -> Q r m') ->
  wp (sl first last n) m Q.

(** What the callers use of shift_right, for ranges between bit [A0] and bit [A1] of a
    memory with the words of [m0]. *)
Definition good_right (m0 : mem) (A0 A1 : Z) (p : policy) (w : Z)
  (sr : iter -> iter -> Z -> M iter) : Prop :=
  forall first last n m (Q : iter -> mem -> Prop),
  let d := addr w last - addr w first in
  valid_w w -> valid_it w first -> valid_it w last -> wf_mem w m ->
  same_dom m0 m -> A0 <= addr w first -> addr w last <= A1 ->
  0 < n < d -> d <= 2 ^ 62 ->
  mapped w m (addr w first) (addr w last) ->
  (ip first <> 0 \/ ip last <> 0 \/ ib last - ib first <> 1 \/
   full_blend_defined p w) ->
  (forall r m', valid_it w r -> addr w r = addr w first + n ->
     shifted_right w m m' (addr w first) (addr w last) n -> Q r m') ->
  wp (sr first last n) m Q.

Lemma good_left_scalar : forall p w, good_left p w (shift_left p w).
Proof. intros p w first last n m Q. apply wp_shift_left. Qed.

Lemma good_right_scalar : forall m0 A0 A1 p w, good_right m0 A0 A1 p w (shift_right p w).
Proof.
  intros m0 A0 A1 p w first last n m Q d Vw V1 V2 Hwf _ _ _. apply wp_shift_right; assumption.
Qed.

Lemma good_left_hwy : forall p h w, vector_fits h w -> good_left p w (shift_left_hwy p h w).
Proof.
  intros p h w Hfit first last n m Q d Vw. intros.
  apply wp_shift_left_with; try assumption. apply sl_words_ok; assumption.
Qed.

Lemma good_right_hwy : forall m0 A0 A1 o h w, vector_fits h w ->
  good_right m0 A0 A1 (Hw o) w (shift_right_hwy (Hw o) h w).
Proof.
  intros m0 A0 A1 o h w Hfit first last n m Q d Vw. intros.
  apply wp_shift_right_with; try assumption. apply sr_words_ok; try assumption. exact I.
Qed.

(** With enough words in front of word [b] also under the rules of the language. *)
Lemma good_right_room : forall m0 A1 p h w b, vector_fits h w ->
  (forall a, b - lanes h < a -> (a + 1) * w < A1 -> m0 a <> None) ->
  good_right m0 (b * w) A1 p w (shift_right_hwy p h w).
Proof.
  intros m0 A1 p h w b Hfit Hroom first last n m Q d Vw V1 V2 Hwf Hd HA HA1 Hn Hmax Hm Hg HQ.
  pose proof (valid_pos w Vw) as Pw.
  apply wp_shift_right_with; try assumption. apply sr_words_ok; try assumption.
  unfold valid_it, addr in *. unfold d in *.
  unfold room_in_front. destruct p; [| |exact I]; intros a Ha N; apply Hd in N;
    revert N; apply Hroom; nia.
Qed.

(** The instances with the shifts of the plain build are the plain functions. *)
Lemma reverse_with_scalar : forall p w first last,
  reverse_with (shift_left p w) (shift_right p w) p w first last = reverse p w first last.
Proof. reflexivity. Qed.

Lemma bind_same : forall A B (c : M A) (k k' : A -> M B) m,
  (forall a m', k a m' = k' a m') -> bind c k m = bind c k' m.
Proof. intros A B c k k' m H. unfold bind. destruct (c m) as [[a m']| | | |]; auto. Qed.

Lemma rot_loop_with_scalar : forall pl w fuel p n k r m,
  rot_loop_with (shift_left pl w) (shift_right pl w) pl w fuel p n k r m =
  rot_loop pl w fuel p n k r m.
Proof.
  intros pl w fuel. induction fuel as [|f IH]; intros p n k r m; [reflexivity|].
  cbn [rot_loop_with rot_loop].
  destruct (k <? n - k).
  - destruct (k <=? w); [reflexivity|].
    repeat (apply bind_same; intros ? ?).
    match goal with |- (let (_, _) := ?x in _) _ = _ => destruct x end.
    repeat (apply bind_same; intros ? ?).
    destruct (Z.rem n k =? 0); [reflexivity|apply IH].
  - destruct (n - k <=? w); [reflexivity|].
    repeat (apply bind_same; intros ? ?).
    match goal with |- (let (_, _) := ?x in _) _ = _ => destruct x end.
    repeat (apply bind_same; intros ? ?).
    destruct (Z.rem n (n - k) =? 0); [reflexivity|apply IH].
Qed.

Lemma rotate_with_scalar : forall pl w first n_first last m,
  rotate_with (shift_left pl w) (shift_right pl w) pl w first n_first last m =
  rotate pl w first n_first last m.
Proof.
  intros pl w first n_first last m. unfold rotate_with, rotate.
  do 3 (apply bind_same; intros _ ?).
  destruct (ieq first n_first); [reflexivity|].
  destruct (one_word first last); [reflexivity|].
  apply bind_same; intros b1 ?. destruct b1; [reflexivity|].
  apply bind_same; intros b2 ?. destruct b2; [reflexivity|].
  unfold rotate_via_raw_with, rotate_via_raw.
  do 2 (apply bind_same; intros ? ?).
  destruct (_ =? _); [reflexivity|].
  do 2 (apply bind_same; intros ? ?). apply rot_loop_with_scalar.
Qed.

Lemma wp_same : forall A (c c' : M A) m (Q : A -> mem -> Prop),
  c m = c' m -> wp c m Q -> wp c' m Q.
Proof. intros A c c' m Q E H. unfold wp in *. rewrite <- E. exact H. Qed.
