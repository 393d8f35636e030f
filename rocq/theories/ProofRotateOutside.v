(** Proofs for C76: bits outside the range while rotate runs, where it takes one of its two
    short ways. *)
From Coq Require Import ZArith Bool List Lia.
From Verif Require Import Base WordOps IterModel PopcntModel Spec ProofBase ProofIter ProofWordOps2
  AlgModel ShiftModel ThreadModel TraceModel SpecCost SpecReads ProofTrace ProofCost ProofCost2
  ProofCost3 ProofWrites ProofOldNew ProofOutside ProofSwapOutside.
Import ListNotations.
Open Scope Z_scope.

Lemma s_rotate_one_word : forall p w first n_first last m, valid_w w -> valid_it w first ->
  valid_it w last -> addr w first < addr w last -> one_word first last = true ->
  stays w (addr w first) (addr w last) (rotate_one_word p w first n_first last) m anym.
Proof.
  intros p w first n_first last m Vw V1 V2 H E. pose proof (valid_pos w Vw) as W.
  unfold one_word in E. apply Z.eqb_eq in E.
  unfold rotate_one_word. destruct ((ip first =? 0) && (ip last =? 0)) eqn:E0.
  - apply andb_true_iff in E0. destruct E0 as [A B]. apply Z.eqb_eq in A, B. rewrite B in E. cbn in E.
    repeat s1. apply sb_store; [intros; left; unfold addr; nia|]. repeat s1. exact I.
  - cbv zeta. repeat s1.
    assert (L : ib first * w + (if ip last =? 0 then w else ip last) = addr w last).
    { unfold addr. destruct (Z.eqb_spec (ip last) 0); cbn [b2z] in E; nia. }
    set (e := if ip last =? 0 then w else ip last) in *.
    assert (e <= w) by (unfold e, valid_it in *; destruct (ip last =? 0); lia).
    unfold addr in H at 1. unfold valid_it in V1. clearbody e.
    rewrite usub_small in * by lia.
    apply sb_store; [|repeat s1; exact I].
    eapply blended; try eassumption; try lia; unfold addr; lia.
Qed.

Lemma k_swap_ranges : forall p w first last first2 m, valid_w w -> valid_it w first ->
  valid_it w last -> valid_it w first2 -> 0 <= addr w last - addr w first <= max_bits ->
  keeps w (either (addr w first) (addr w first2) (addr w last - addr w first))
    (swap_ranges p w first last first2) m anym.
Proof.
  intros p w first last first2 m Vw V1 V2 V3 H. pose proof (valid_pos w Vw) as W.
  unfold swap_ranges, max_bits in *.
  rewrite assert_viable_eq by (assumption || lia). k1.
  destruct (ieq first last) eqn:EI; [k1; exact I|].
  rewrite (ieq_addr w) in EI by (assumption || lia). apply Z.eqb_neq in EI.
  destruct (Z.eqb_spec (ib first + b2z (ip last =? 0)) (ib last)) as [C|C].
  - apply k_swap_one_word; assumption || (unfold max_bits; lia).
  - assert (B : ib first < ib last).
    { pose proof (base_lt w first last Vw V1 V2 ltac:(lia)). destruct (Z.eqb_spec (ip last) 0) as [D|D]; cbn [b2z] in C; [|lia].
      destruct (Z.eq_dec (ib first) (ib last)) as [E|E]; [|lia]. exfalso. unfold addr, valid_it in *. rewrite E in *. lia. }
    destruct (Z.eqb_spec (ip first) (ip first2)); [apply k_swap_aligned|apply k_swap_unaligned]; assumption.
Qed.

Lemma rotate_one_word_outside : forall p w first n_first last m s i, valid_w w -> valid_it w first ->
  valid_it w n_first -> valid_it w last -> addr w first <= addr w n_first <= addr w last ->
  addr w last - addr w first <= max_bits -> one_word first last = true ->
  psteps (m, [rotate p w first n_first last]) s -> i < addr w first \/ addr w last <= i ->
  bit w (fst s) i = bit w m i.
Proof.
  intros p w first n_first last m s i Vw V1 V2 V3 H L E St Hi. pose proof (valid_pos w Vw) as W.
  eapply (stays_steps _ w (addr w first) (addr w last) _ _ ltac:(lia) St); [reflexivity| |exact Hi].
  instantiate (1 := anym). unfold rotate, max_bits in *.
  rewrite !assert_viable_eq by (assumption || lia). do 3 s1.
  destruct (ieq first n_first) eqn:EI; [s1; exact I|].
  rewrite (ieq_addr w) in EI by (assumption || lia). apply Z.eqb_neq in EI.
  rewrite E. apply s_rotate_one_word; assumption || lia.
Qed.

Lemma rotate_halves_outside : forall p w first n_first last m s i, valid_w w -> valid_it w first ->
  valid_it w n_first -> valid_it w last -> addr w n_first - addr w first = addr w last - addr w n_first ->
  w < addr w n_first - addr w first -> addr w last - addr w first <= max_bits ->
  psteps (m, [rotate p w first n_first last]) s -> i < addr w first \/ addr w last <= i ->
  bit w (fst s) i = bit w m i.
Proof.
  intros p w first n_first last m s i Vw V1 V2 V3 H H1 L St Hi. pose proof (valid_pos w Vw) as W.
  unfold max_bits in *.
  eapply (keeps_steps _ w (either (addr w first) (addr w n_first) (addr w n_first - addr w first)) _ _ ltac:(lia) St);
    [reflexivity| |unfold either; lia].
  instantiate (1 := anym). unfold rotate.
  rewrite !assert_viable_eq by (assumption || lia). do 3 k1.
  destruct (ieq first n_first) eqn:EI; [k1; exact I|].
  destruct (one_word first last) eqn:EO.
  { exfalso. unfold one_word in EO. apply Z.eqb_eq in EO. unfold addr, valid_it in *.
    destruct (Z.eqb_spec (ip last) 0); cbn [b2z] in EO; nia. }
  rewrite !is_within_eq by (assumption || lia). k1. destruct (Z.leb_spec (addr w n_first - addr w first) w); [lia|].
  k1. destruct (Z.leb_spec (addr w last - addr w n_first) w); [lia|].
  unfold rotate_via_raw. rewrite !(idiff_eq w) by (assumption || lia). do 2 k1.
  destruct (Z.eqb_spec (addr w n_first - addr w first) (addr w last - addr w first - (addr w n_first - addr w first))); [|lia].
  eapply keeps_bind; [apply k_swap_ranges; assumption || (unfold max_bits; lia)|]. intros. k1. exact I.
Qed.
