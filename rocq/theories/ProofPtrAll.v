(** The theorems about checked word iterators in the form of Properties_Ptr.v. *)
From Coq Require Import ZArith Bool List Lia.
From Verif Require Import Base WordOps IterModel PopcntModel AlgModel ShiftModel SwapModel ReverseModel
  RotateModel TransformModel Spec PtrModel SpecPtr ProofBase ProofIter ProofWord ProofPtr ProofPtrFront
  ProofPtrBack ProofPtrSwap ProofPtrShift ProofPtrRotate.
Import ListNotations.
Open Scope Z_scope.

Lemma ptr_fill : forall p w A f l b m, valid_w w -> arr_range A w f l ->
  fill_c A p w f l b m = fill p w f l b m.
Proof. intros p w A f l b m Vw (V1 & V2 & H1 & H2 & H3). apply fill_ptr; assumption. Qed.

Lemma ptr_find : forall p w A f l b m, valid_w w -> arr_range A w f l ->
  find_c A p w f l b m = find p w f l b m.
Proof. intros p w A f l b m Vw (V1 & V2 & H1 & H2 & H3). apply find_ptr; assumption. Qed.

Lemma ptr_count : forall t p w A f l b m, valid_w w -> arr_range A w f l ->
  let past := ip f <> 0 /\ ib f + 1 = ib l /\ ib l = ahi A in
  (~ past -> count_c A t p w f l b m = count t p w f l b m) /\
  (past -> forall r, count t p w f l b m = Ok r -> count_c A t p w f l b m = UB BadUse).
Proof.
  intros t p w A f l b m Vw (V1 & V2 & H1 & H2 & H3) past. split; intros H.
  - apply count_ptr; assumption.
  - apply count_breaks; assumption.
Qed.

Lemma ptr_equal : forall p w A B f l d m, valid_w w -> arr_range A w f l ->
  arr_dest B w d (addr w l - addr w f) -> equal_c A B p w f l d m = equal p w f l d m.
Proof. intros p w A B f l d m Vw (V1 & V2 & H1 & H2 & H3) (V3 & H4). apply equal_ptr; assumption. Qed.

Lemma ptr_copy : forall p w A B f l d m, valid_w w -> arr_range A w f l ->
  arr_dest B w d (addr w l - addr w f) -> copy_c A B p w f l d m = copy p w f l d m.
Proof. intros p w A B f l d m Vw (V1 & V2 & H1 & H2 & H3) (V3 & H4). apply copy_ptr; assumption. Qed.

Lemma ptr_swap : forall p w A B f l d m, valid_w w -> arr_range A w f l ->
  arr_dest B w d (addr w l - addr w f) -> swap_ranges_c A B p w f l d m = swap_ranges p w f l d m.
Proof.
  intros p w A B f l d m Vw (V1 & V2 & H1 & H2 & H3) (V3 & H4). eapply sim_eq. apply swap_sim; assumption.
Qed.

Lemma ptr_transform1 : forall p w A B op f l d m, valid_w w -> arr_range A w f l ->
  arr_dest B w d (addr w l - addr w f) -> transform1_c A B p w op f l d m = transform1 p w op f l d m.
Proof. intros p w A B op f l d m Vw (V1 & V2 & H1 & H2 & H3) (V3 & H4). apply transform1_ptr; assumption. Qed.

Lemma ptr_transform2 : forall p w A1 A2 B op f l f2 d m, valid_w w -> arr_range A1 w f l ->
  arr_dest A2 w f2 (addr w l - addr w f) -> arr_dest B w d (addr w l - addr w f) ->
  transform2_c A1 A2 B p w op f l f2 d m = transform2 p w op f l f2 d m.
Proof.
  intros p w A1 A2 B op f l f2 d m Vw (V1 & V2 & H1 & H2 & H3) (V3 & H4) (V5 & H6).
  apply transform2_ptr; assumption.
Qed.

Lemma ptr_copy_backward : forall p w A B f l d m, valid_w w -> arr_range A w f l ->
  arr_dest_end B w d (addr w l - addr w f) ->
  (~ copies_to_front w B f d (addr w l - addr w f) ->
     copy_backward_c A B p w f l d m = copy_backward p w f l d m) /\
  (copies_to_front w B f d (addr w l - addr w f) ->
     forall r, copy_backward p w f l d m = Ok r -> copy_backward_c A B p w f l d m = UB BadUse).
Proof.
  intros p w A B f l d m Vw (V1 & V2 & H1 & H2 & H3) (V3 & H4). apply copy_backward_both; assumption.
Qed.

Lemma ptr_copy_backward_up : forall p w A f l d m, valid_w w -> arr_range A w f l ->
  valid_it w d -> addr w l < addr w d <= ahi A * w ->
  copy_backward_c A A p w f l d m = copy_backward p w f l d m.
Proof.
  intros p w A f l d m Vw R V3 H. apply (ptr_copy_backward p w A A f l d m Vw R).
  - destruct R as (V1 & V2 & H1 & H2 & [H3 H4]). split; [assumption|]. split; lia.
  - destruct R as (V1 & V2 & H1 & H2 & [H3 H4]). intros (E1 & E2 & _). lia.
Qed.

Lemma ptr_shift_left : forall p w A f l n m, valid_w w -> arr_range A w f l -> - max_bits <= n <= max_bits ->
  (pointable A w (addr w f + n) -> shift_left_c A p w f l n m = shift_left p w f l n m) /\
  (~ pointable A w (addr w f + n) -> shift_left_c A p w f l n m = UB BadUse).
Proof. intros p w A f l n m Vw (V1 & V2 & H1 & H2 & H3) Hn. apply shift_left_ptr; assumption. Qed.

Lemma ptr_shift_right : forall p w A f l n m, valid_w w -> arr_range A w f l -> - max_bits <= n <= max_bits ->
  (~ pointable A w (addr w l - n) -> shift_right_c A p w f l n m = UB BadUse) /\
  (pointable A w (addr w l - n) -> ~ shifts_from_front w A f l n ->
     shift_right_c A p w f l n m = shift_right p w f l n m) /\
  (shifts_from_front w A f l n ->
     forall r, shift_right p w f l n m = Ok r -> shift_right_c A p w f l n m = UB BadUse).
Proof.
  intros p w A f l n m Vw (V1 & V2 & H1 & H2 & H3) Hn. split; [|split].
  - intros P. apply shift_right_ptr_bad; assumption.
  - intros P N. eapply sim_eq. apply shift_right_both; assumption.
  - intros B. apply shift_right_both; try assumption.
    destruct B as (D1 & D2 & D3 & D4 & D5). pose proof (valid_pos w Vw) as Pw. destruct H3 as [H3 H4].
    apply pointable_in; [lia|]. unfold addr, valid_it in *. lia.
Qed.

Lemma ptr_reverse : forall p w A f l m, valid_w w -> arr_range A w f l ->
  addr w l - addr w f + 2 * w <= max_bits ->
  (~ reverses_from_front w A f l -> reverse_c A p w f l m = reverse p w f l m) /\
  (reverses_from_front w A f l ->
     forall r, reverse p w f l m = Ok r -> reverse_c A p w f l m = UB BadUse).
Proof. intros p w A f l m Vw (V1 & V2 & H1 & H2 & H3) Hb. apply reverse_both; assumption. Qed.

Lemma ptr_rotate : forall p w A f nf l m, valid_w w -> arr_range A w f l -> valid_it w nf ->
  addr w f <= addr w nf < addr w l ->
  (alo A < ib f \/ addr w nf - addr w f <= w \/ addr w nf - addr w f <= addr w l - addr w nf) ->
  rotate_c A p w f nf l m = rotate p w f nf l m.
Proof.
  intros p w A f nf l m Vw (V1 & V2 & H1 & H2 & H3) V3 [H4 H5] H6. apply rotate_ptr; assumption.
Qed.

Lemma ptr_rotate_both : forall p w A f nf l m, valid_w w -> arr_range A w f l -> valid_it w nf ->
  addr w f <= addr w nf < addr w l ->
  let bad := w < addr w nf - addr w f /\
             rotates_from_front w A f (addr w nf - addr w f) (addr w l - addr w nf) in
  (~ bad -> rotate_c A p w f nf l m = rotate p w f nf l m) /\
  (bad -> forall r, rotate p w f nf l m = Ok r -> rotate_c A p w f nf l m = UB BadUse).
Proof.
  intros p w A f nf l m Vw (V1 & V2 & H1 & H2 & H3) V3 [H4 H5] bad. split.
  - apply rotate_ptr_ok; assumption.
  - intros [B1 B2]. apply rotate_ptr_bad; assumption.
Qed.
