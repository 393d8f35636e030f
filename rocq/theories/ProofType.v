(** Proofs about the type selectors. *)
From Coq Require Import ZArith Bool List Lia.
From Verif Require Import TypeModel SpecType.
Import ListNotations.
Open Scope Z_scope.

Lemma narrowest2_ok : forall t u, (narrowest2 t u = t \/ narrowest2 t u = u) /\
  digits_of (narrowest2 t u) = Z.min (digits_of t) (digits_of u).
Proof. intros [] []; cbn; lia || (split; [auto|reflexivity]). Qed.

Lemma widest2_ok : forall t u, (widest2 t u = t \/ widest2 t u = u) /\
  digits_of (widest2 t u) = Z.max (digits_of t) (digits_of u).
Proof. intros [] []; cbn; lia || (split; [auto|reflexivity]). Qed.

Lemma narrowest_digits : forall us t, In (narrowest t us) (t :: us) /\
  forall u, In u (t :: us) -> digits_of (narrowest t us) <= digits_of u.
Proof.
  induction us as [|v us IH]; intros t; cbn [narrowest].
  - split; [left; reflexivity|]. intros u [->|[]]. lia.
  - destruct (IH v) as (I1 & I2). destruct (narrowest2_ok t (narrowest v us)) as (H1 & H2).
    split.
    + destruct H1 as [H1|H1]; rewrite H1; [left; reflexivity|right; exact I1].
    + intros u [->|Hu]; [lia|]. specialize (I2 u Hu). lia.
Qed.

Lemma widest_digits : forall us t, In (widest t us) (t :: us) /\
  forall u, In u (t :: us) -> digits_of u <= digits_of (widest t us).
Proof.
  induction us as [|v us IH]; intros t; cbn [widest].
  - split; [left; reflexivity|]. intros u [->|[]]. lia.
  - destruct (IH v) as (I1 & I2). destruct (widest2_ok t (widest v us)) as (H1 & H2).
    split.
    + destruct H1 as [H1|H1]; rewrite H1; [left; reflexivity|right; exact I1].
    + intros u [->|Hu]; [lia|]. specialize (I2 u Hu). lia.
Qed.

Lemma narrower_digits : forall t,
  (t = UChar -> narrower t = UChar) /\
  (t <> UChar -> digits_of (narrower t) < digits_of t /\
     forall u, digits_of u < digits_of t -> digits_of u <= digits_of (narrower t)).
Proof.
  intros []; (split; intros H; [try discriminate; try reflexivity|]); try congruence;
    (split; [reflexivity|]); intros []; cbn; lia.
Qed.

Lemma wider_never_digits : forall t, digits_of (wider t) <= digits_of t.
Proof. intros []; cbn; lia. Qed.

Lemma bits_digits : forall t, bits_of t = digits_of t.
Proof. intros []; reflexivity. Qed.

Lemma digits_ok : forall t, digits_of t = bits_of t.
Proof. intros []; reflexivity. Qed.

Lemma narrowest_ok : forall us t, In (narrowest t us) (t :: us) /\
  forall u, In u (t :: us) -> bits_of (narrowest t us) <= bits_of u.
Proof.
  intros us t. destruct (narrowest_digits us t) as [H1 H2]. split; [exact H1|].
  intros u Hu. rewrite !bits_digits. apply H2, Hu.
Qed.

Lemma widest_ok : forall us t, In (widest t us) (t :: us) /\
  forall u, In u (t :: us) -> bits_of u <= bits_of (widest t us).
Proof.
  intros us t. destruct (widest_digits us t) as [H1 H2]. split; [exact H1|].
  intros u Hu. rewrite !bits_digits. apply H2, Hu.
Qed.

Lemma narrower_ok : forall t,
  (t = UChar -> narrower t = UChar) /\
  (t <> UChar -> bits_of (narrower t) < bits_of t /\
     forall u, bits_of u < bits_of t -> bits_of u <= bits_of (narrower t)).
Proof.
  intros t. destruct (narrower_digits t) as [H1 H2]. split; [exact H1|]. intros Ht.
  destruct (H2 Ht) as [H3 H4]. rewrite !bits_digits. split; [exact H3|].
  intros u. rewrite !bits_digits. apply H4.
Qed.

Lemma wider_never : forall t, bits_of (wider t) <= bits_of t.
Proof. intros t. rewrite !bits_digits. apply wider_never_digits. Qed.
