(** Proofs for C64 and C65. *)
From Coq Require Import Bool List Arith Lia.
From Verif Require Import OverloadModel SpecOverload.
Import ListNotations.

(** The function reached by the recursion is the first detected one. *)
Lemma call_from_spec : forall A S R (fs : list (fn A S R)) a s fuel n,
  length fs <= n + fuel ->
  (forall j g, j < n -> nth_error fs j = Some g -> detected g a = false) ->
  (exists i f, nth_error fs i = Some f /\ detected f a = true /\
     (forall j g, j < i -> nth_error fs j = Some g -> detected g a = false) /\
     call_from fuel fs n a s = invoke f a s) \/
  ((forall j g, nth_error fs j = Some g -> detected g a = false) /\
   call_from fuel fs n a s = Done None s).
Proof.
  intros A S R fs a s fuel. induction fuel as [|k IH]; intros n H B.
  - right. assert (E : nth_error fs n = None) by (apply nth_error_None; lia).
    split; [|cbn; rewrite E; reflexivity].
    intros j g G. destruct (lt_dec j n) as [L|L]; [exact (B j g L G)|].
    assert (nth_error fs j = None) as F by (apply nth_error_None; lia).
    rewrite F in G. discriminate.
  - cbn [call_from]. destruct (nth_error fs n) as [f|] eqn:E.
    + destruct (detected f a) eqn:D.
      * left. exists n, f. repeat split; assumption.
      * apply IH; [lia|]. intros j g L G.
        destruct (Nat.eq_dec j n) as [->|N].
        -- rewrite E in G. injection G as <-. exact D.
        -- apply (B j g); [lia|exact G].
    + right. split; [|reflexivity]. apply nth_error_None in E.
      intros j g G. destruct (lt_dec j n) as [L|L]; [exact (B j g L G)|].
      assert (nth_error fs j = None) as F by (apply nth_error_None; lia).
      rewrite F in G. discriminate.
Qed.

Lemma call_spec : forall A S R (fs : list (fn A S R)) a s,
  (exists i f, nth_error fs i = Some f /\ detected f a = true /\
     (forall j g, j < i -> nth_error fs j = Some g -> detected g a = false) /\
     overload_call fs a s = invoke f a s) \/
  ((forall j g, nth_error fs j = Some g -> detected g a = false) /\
   overload_call fs a s = Done None s).
Proof.
  intros A S R fs a s. apply call_from_spec; [lia|]. intros j g L. lia.
Qed.

(** Any list in which detection and callability agree. *)
Lemma call_agree : forall A S R (fs : list (fn A S R)) a s,
  (forall f, In f fs -> detected f a = f_lvalue f a) ->
  (exists i f, first_callable fs a i f /\
     overload_call fs a s = Done (Some (fst (f_body f a s))) (snd (f_body f a s))) \/
  (none_callable fs a /\ overload_call fs a s = Done None s).
Proof.
  intros A S R fs a s H. destruct (call_spec A S R fs a s) as [[i [f [E [D [B C]]]]]|[B C]].
  - left. exists i, f. pose proof (H f (nth_error_In fs i E)) as Hf. rewrite D in Hf.
    split.
    + split; [exact E|]. split; [symmetry; exact Hf|].
      intros j g L G. rewrite <- (H g (nth_error_In fs j G)). exact (B j g L G).
    + rewrite C. unfold invoke. rewrite <- Hf.
      destruct (f_body f a s) as [r s']. reflexivity.
  - right. split; [|exact C].
    intros j g G. rewrite <- (H g (nth_error_In fs j G)). exact (B j g G).
Qed.

Lemma call_unqualified : forall A S R (fs : list (fn A S R)) a s,
  Forall (unqualified a) fs ->
  (exists i f, first_callable fs a i f /\
     overload_call fs a s = Done (Some (fst (f_body f a s))) (snd (f_body f a s))) \/
  (none_callable fs a /\ overload_call fs a s = Done None s).
Proof.
  intros A S R fs a s H. apply call_agree. intros f I.
  rewrite Forall_forall in H. specialize (H f I). unfold unqualified in H.
  unfold detected. destruct (f_ref f); congruence.
Qed.

Lemma call_lvalues : forall A S R (gs : list (bool * fn A S R)) a s,
  Forall (fun g => fst g = true) gs ->
  (exists i g, first_callable (map snd gs) a i g /\
     overload_call (overload_linearly gs) a s =
       Done (Some (fst (f_body g a s))) (snd (f_body g a s))) \/
  (none_callable (map snd gs) a /\
   overload_call (overload_linearly gs) a s = Done None s).
Proof.
  intros A S R gs a s H.
  assert (L : forall j g, nth_error (overload_linearly gs) j = Some g ->
    exists h, nth_error (map snd gs) j = Some h /\ g = deduce true h).
  { intros j g G. unfold overload_linearly in G. rewrite nth_error_map in G.
    destruct (nth_error gs j) as [[l h]|] eqn:E; [|discriminate].
    cbn in G. injection G as <-. exists h. rewrite nth_error_map, E.
    rewrite Forall_forall in H. specialize (H _ (nth_error_In _ _ E)). cbn in H.
    subst l. split; reflexivity. }
  assert (L2 : forall j h, nth_error (map snd gs) j = Some h ->
    exists l, nth_error (overload_linearly gs) j = Some (deduce l h)).
  { intros j h G. rewrite nth_error_map in G. unfold overload_linearly.
    rewrite nth_error_map. destruct (nth_error gs j) as [[l k]|]; [|discriminate].
    cbn in *. injection G as <-. exists l. reflexivity. }
  destruct (call_agree A S R (overload_linearly gs) a s) as [[i [f [[E [D B]] C]]]|[B C]].
  - intros f I. apply In_nth_error in I. destruct I as [j I].
    destruct (L j f I) as [h [_ ->]]. reflexivity.
  - left. destruct (L i f E) as [h [E2 ->]]. exists i, h. split; [|exact C].
    split; [exact E2|]. split; [exact D|].
    intros j k J K. destruct (L2 j k K) as [l G]. exact (B j _ J G).
  - right. split; [|exact C]. intros j k K. destruct (L2 j k K) as [l G].
    exact (B j _ G).
Qed.

(** The general case: what happens is decided by the first function that is
    detected. *)
Lemma call_exact : forall A S R (fs : list (fn A S R)) a s,
  overload_call fs a s = IllFormed <->
  exists i f, nth_error fs i = Some f /\ f_ref f = false /\
    f_rvalue f a = true /\ f_lvalue f a = false /\
    forall j g, j < i -> nth_error fs j = Some g ->
      (if f_ref g then f_lvalue g a else f_rvalue g a) = false.
Proof.
  intros A S R fs a s. split.
  - intros H. destruct (call_spec A S R fs a s) as [[i [f [E [D [B C]]]]]|[B C]];
      [|congruence].
    exists i, f. split; [exact E|]. rewrite C in H. unfold invoke in H.
    unfold detected in D, B. destruct (f_lvalue f a) eqn:F.
    + destruct (f_body f a s); discriminate.
    + destruct (f_ref f); [discriminate|]. repeat split; assumption.
  - intros [i [f [E [Rf [Rv [Lv B]]]]]].
    destruct (call_spec A S R fs a s) as [[k [g [E2 [D [B2 C]]]]]|[B2 C]].
    + destruct (lt_eq_lt_dec i k) as [[L|L]|L].
      * specialize (B2 i f L E). unfold detected in B2. rewrite Rf in B2. congruence.
      * subst k. rewrite E in E2. injection E2 as <-. rewrite C. unfold invoke.
        rewrite Lv. reflexivity.
      * specialize (B k g L E2). unfold detected in D. congruence.
    + specialize (B2 i f E). unfold detected in B2. rewrite Rf in B2. congruence.
Qed.

Lemma call_skips : exists (fs : list (fn nat (list nat) nat)) (a : nat) (s : list nat) i f,
  first_callable fs a i f /\
  overload_call fs a s <> Done (Some (fst (f_body f a s))) (snd (f_body f a s)) /\
  overload_call fs a s <> IllFormed.
Proof.
  exists [Fn false (fun _ => true) (fun _ => false) (fun x s => (x, 1 :: s));
          Fn false (fun _ => true) (fun _ => true) (fun x s => (x, 2 :: s))],
    7, [], 0,
    (Fn false (fun _ => true) (fun _ => false) (fun x s => (x, 1 :: s))).
  split; [|split; vm_compute; discriminate].
  split; [reflexivity|]. split; [reflexivity|]. intros j g L. lia.
Qed.

Lemma sizes : forall A S R (gs : list (bool * fn A S R)),
  overload_size (overload_linearly gs) = length gs /\
  overload_max_size (overload_linearly gs) = length gs /\
  (overload_empty (overload_linearly gs) = true <-> gs = []).
Proof.
  intros A S R gs. unfold overload_size, overload_max_size, overload_empty, overload_linearly.
  rewrite map_length. split; [reflexivity|]. split; [reflexivity|].
  rewrite Nat.eqb_eq. apply length_zero_iff_nil.
Qed.

(** The traits. *)
Lemma traits_bit : forall t, is_bit t = true <->
  (t = TBit \/ t = TValue \/ exists w, t = TRef w).
Proof.
  intros t. split.
  - destruct t; cbn; intros H; try discriminate; auto. right. right. eexists; reflexivity.
  - intros [->|[->|[w ->]]]; reflexivity.
Qed.

Lemma traits_level : forall t c d, category t = Some c -> d <> COutput ->
  has_category d t = (strength d <=? strength c).
Proof.
  intros t c d H N. unfold has_category. rewrite H.
  destruct c, d; try reflexivity; congruence.
Qed.

Lemma traits_chain : forall t,
  (is_random_access_iterator t = true -> is_bidirectional_iterator t = true) /\
  (is_bidirectional_iterator t = true -> is_forward_iterator t = true) /\
  (is_forward_iterator t = true -> is_input_iterator t = true) /\
  (is_iterator t = true <-> is_input_iterator t = true \/ is_output_iterator t = true) /\
  (is_input_iterator t = true -> is_output_iterator t = false).
Proof.
  intros t. unfold is_random_access_iterator, is_bidirectional_iterator, is_forward_iterator,
    is_input_iterator, is_output_iterator, is_iterator, has_category.
  destruct (category t) as [c|]; [destruct c|]; cbn; intuition congruence.
Qed.

Lemma traits_const : forall t c d,
  has_category c (TConst (TIter d)) = has_category c (TIter d) /\
  has_category c (TConst TPtr) = false /\
  has_category c (TLref t) = false /\
  is_bit (TConst t) = false /\ is_bit (TLref t) = false.
Proof. intros t c d. repeat split; reflexivity. Qed.

Lemma traits_output_false : exists t, is_forward_iterator t = true /\
  is_output_iterator t = false /\ t = TPtr.
Proof. exists TPtr. vm_compute. repeat split. Qed.
