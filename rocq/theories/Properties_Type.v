(** Property C46: the type selectors. Only theorems, each closed by a lemma, with an
    example beside it. *)
From Coq Require Import ZArith Bool List Lia.
From Verif Require Import TypeModel SpecType ProofType.
Import ListNotations.
Open Scope Z_scope.

(** C46. binary_digits counts the bits of the type. *)
Theorem C46_digits : forall t, digits_of t = bits_of t.
Proof. exact digits_ok. Qed.
Print Assumptions C46_digits.

Example C46_digits_example : digits_of UInt = 32 /\ bits_of UInt = 32.
Proof. split; reflexivity. Qed.

(** C46. _narrowest_type yields one of its arguments, and none has fewer digits. *)
Theorem C46_narrowest : forall us t, In (narrowest t us) (t :: us) /\
  forall u, In u (t :: us) -> bits_of (narrowest t us) <= bits_of u.
Proof. exact narrowest_ok. Qed.
Print Assumptions C46_narrowest.

Example C46_narrowest_example : narrowest ULong [UInt; ULongLong; UShort; UInt] = UShort.
Proof. reflexivity. Qed.

(** C46. _widest_type yields one of its arguments, and none has more digits. *)
Theorem C46_widest : forall us t, In (widest t us) (t :: us) /\
  forall u, In u (t :: us) -> bits_of u <= bits_of (widest t us).
Proof. exact widest_ok. Qed.
Print Assumptions C46_widest.

Example C46_widest_example : widest UShort [UInt; ULong; ULongLong; UChar] = ULongLong.
Proof. reflexivity. Qed.

(** C46. _narrower_type yields the widest of the strictly narrower types, and the type
    itself if there is none. *)
Theorem C46_narrower : forall t,
  (t = UChar -> narrower t = UChar) /\
  (t <> UChar -> bits_of (narrower t) < bits_of t /\
     forall u, bits_of u < bits_of t -> bits_of u <= bits_of (narrower t)).
Proof. exact narrower_ok. Qed.
Print Assumptions C46_narrower.

Example C46_narrower_example : ULong <> UChar /\ narrower ULong = UInt.
Proof. split; [discriminate|reflexivity]. Qed.

(** C46 is false of _wider_type: it never yields a wider type. *)
Theorem C46_wider_never : forall t, bits_of (wider t) <= bits_of t.
Proof. exact wider_never. Qed.
Print Assumptions C46_wider_never.

Example C46_wider_never_example : wider UShort = UChar /\ wider ULong = UInt.
Proof. split; reflexivity. Qed.

Theorem C46_wider_refuted : exists t u, bits_of t < bits_of u /\
  ~ bits_of t < bits_of (wider t).
Proof. exists UShort, UInt. vm_compute. split; [reflexivity|discriminate]. Qed.
Print Assumptions C46_wider_refuted.
