(** Bit vectors as lists: storage, memory and contents. *)
From Coq Require Import ZArith Bool List Lia.
From Verif Require Import Base WordOps IterModel RefModel PopcntModel AlgModel ShiftModel
  Spec SpecRef VecModel SpecVec ProofBase ProofIter ProofReference ProofRange ProofShift.
Import ListNotations.
Open Scope Z_scope.
Ltac Zify.zify_post_hook ::= idtac.

Lemma list_bits_length : forall w ws, 0 < w ->
  length (list_bits w ws) = (length ws * Z.to_nat w)%nat.
Proof.
  intros w ws Hw. unfold list_bits. induction ws as [|x ws IH]; cbn; [reflexivity|].
  rewrite app_length, map_length, seq_length, IH. reflexivity.
Qed.

Lemma list_bits_nth : forall w ws i, 0 < w -> 0 <= i < Z.of_nat (length ws) * w ->
  nth (Z.to_nat i) (list_bits w ws) false = Z.testbit (nth (Z.to_nat (i / w)) ws 0) (i mod w).
Proof.
  intros w ws i Hw. revert i. induction ws as [|x ws IH]; intros i Hi; [cbn in Hi; lia|].
  change (list_bits w (x :: ws)) with
    (map (fun k => Z.testbit x (Z.of_nat k)) (seq 0 (Z.to_nat w)) ++ list_bits w ws).
  destruct (Z.ltb_spec i w) as [C|C].
  - rewrite app_nth1 by (rewrite map_length, seq_length; lia).
    rewrite (nth_indep _ false (Z.testbit x (Z.of_nat 0)))
      by (rewrite map_length, seq_length; lia).
    rewrite (map_nth (fun k => Z.testbit x (Z.of_nat k))), seq_nth by lia.
    rewrite (Z.div_small i w), (Z.mod_small i w) by lia. cbn [nth Z.to_nat].
    f_equal. lia.
  - rewrite app_nth2 by (rewrite map_length, seq_length; lia).
    rewrite map_length, seq_length.
    replace (Z.to_nat i - Z.to_nat w)%nat with (Z.to_nat (i - w)) by lia.
    rewrite IH by (cbn [length] in Hi; lia).
    assert (E1 : i / w = (i - w) / w + 1).
    { replace i with (i - w + 1 * w) at 1 by lia. rewrite Z.div_add by lia. reflexivity. }
    assert (E2 : i mod w = (i - w) mod w).
    { replace i with (i - w + 1 * w) at 1 by lia. rewrite Z.mod_add by lia. reflexivity. }
    assert (0 <= (i - w) / w) by (apply Z.div_pos; lia).
    rewrite E1, E2. replace (Z.to_nat ((i - w) / w + 1)) with (S (Z.to_nat ((i - w) / w))) by lia.
    reflexivity.
Qed.

Lemma vmem_bit : forall w ws ext i, 0 < w -> 0 <= i ->
  bit w (vmem ws ext) i =
  if i <? Z.of_nat (length ws) * w then Z.testbit (nth (Z.to_nat (i / w)) ws 0) (i mod w)
  else false.
Proof.
  intros w ws ext i Hw Hi. unfold bit, vmem, wsize.
  assert (0 <= i / w) by (apply Z.div_pos; lia).
  destruct (Z.ltb_spec (i / w) 0) as [C|C]; [lia|].
  destruct (Z.ltb_spec i (Z.of_nat (length ws) * w)) as [D|D];
  destruct (Z.ltb_spec (i / w) (Z.of_nat (length ws))) as [E|E]; try reflexivity.
  - assert (i / w < Z.of_nat (length ws)) by (apply Z.div_lt_upper_bound; lia). lia.
  - assert (Z.of_nat (length ws) <= i / w) by (apply Z.div_le_lower_bound; lia). lia.
Qed.

Lemma list_bits_bit : forall w ws ext i, 0 < w -> 0 <= i ->
  nth (Z.to_nat i) (list_bits w ws) false = bit w (vmem ws ext) i.
Proof.
  intros w ws ext i Hw Hi. rewrite vmem_bit by assumption.
  destruct (Z.ltb_spec i (Z.of_nat (length ws) * w)) as [C|C].
  - apply list_bits_nth; lia.
  - apply nth_overflow. rewrite list_bits_length by lia. lia.
Qed.

Lemma vmem_wf : forall w ws ext, words_ok w ws -> wf_mem w ext -> wf_mem w (vmem ws ext).
Proof.
  intros w ws ext H He a x E. unfold vmem, wsize in E.
  destruct (Z.ltb_spec a 0) as [C|C]; [apply (He a); exact E|].
  destruct (Z.ltb_spec a (Z.of_nat (length ws))) as [D|D]; [|discriminate].
  injection E as <-. unfold words_ok in H. rewrite Forall_forall in H. apply H. apply nth_In. lia.
Qed.

Lemma nomem_wf : forall w, wf_mem w nomem.
Proof. intros w a x E. discriminate E. Qed.

Lemma vmem_mapped : forall w ws ext lo hi, 0 < w -> 0 <= lo ->
  hi <= Z.of_nat (length ws) * w -> mapped w (vmem ws ext) lo hi.
Proof.
  intros w ws ext lo hi Hw Hlo Hhi i Hi E. unfold vmem, wsize in E.
  assert (0 <= i / w) by (apply Z.div_pos; lia).
  assert (i / w < Z.of_nat (length ws)) by (apply Z.div_lt_upper_bound; lia).
  destruct (Z.ltb_spec (i / w) 0) as [C|C]; [lia|].
  destruct (Z.ltb_spec (i / w) (Z.of_nat (length ws))) as [D|D]; [discriminate|lia].
Qed.

Lemma words_of_nth : forall n m k, (k < n)%nat ->
  nth k (words_of n m) 0 = match m (Z.of_nat k) with Some x => x | None => 0 end.
Proof.
  intros n m k Hk. unfold words_of.
  set (g := fun k => match m (Z.of_nat k) with Some x => x | None => 0 end).
  rewrite (nth_indep _ 0 (g O)) by (rewrite map_length, seq_length; lia).
  rewrite map_nth, seq_nth by lia. reflexivity.
Qed.

Lemma words_of_length : forall n m, length (words_of n m) = n.
Proof. intros n m. unfold words_of. rewrite map_length, seq_length. reflexivity. Qed.

Lemma words_of_ok : forall w n m, 0 <= w -> wf_mem w m -> words_ok w (words_of n m).
Proof.
  intros w n m Hw H. unfold words_ok, words_of. rewrite Forall_map. apply Forall_forall.
  intros k _. destruct (m (Z.of_nat k)) as [x|] eqn:E; [apply (H _ _ E)|].
  pose proof (pow_pos w Hw). lia.
Qed.

Lemma words_of_bit : forall w ws ext m ext' i, 0 < w -> same_dom (vmem ws ext) m -> 0 <= i ->
  bit w (vmem (words_of (length ws) m) ext') i = bit w m i.
Proof.
  intros w ws ext m ext' i Hw Hd Hi. unfold bit.
  assert (0 <= i / w) by (apply Z.div_pos; lia).
  unfold vmem at 1. unfold wsize. rewrite words_of_length.
  destruct (Z.ltb_spec (i / w) 0) as [C|C]; [lia|].
  destruct (Hd (i / w)) as [D1 D2]. unfold vmem, wsize in D1, D2.
  destruct (Z.ltb_spec (i / w) 0) as [C'|C']; [lia|].
  destruct (Z.ltb_spec (i / w) (Z.of_nat (length ws))) as [E|E].
  - rewrite words_of_nth by lia. rewrite Z2Nat.id by lia.
    destruct (m (i / w)); [reflexivity|]. exfalso. discriminate (D2 eq_refl).
  - rewrite (D1 eq_refl). reflexivity.
Qed.

(** Running an algorithm on the storage. *)
Lemma on_words_wp : forall A w ws ext (c : M A) (Q : A -> list Z -> mem -> Prop), 0 < w ->
  wp c (vmem ws ext) (fun a m' => wf_mem w m' /\ same_dom (vmem ws ext) m' /\
    forall ws', length ws' = length ws -> words_ok w ws' ->
      (forall i ext', 0 <= i -> bit w (vmem ws' ext') i = bit w m' i) ->
      Q a ws' (outside m')) ->
  rwp (on_words_ext ws ext c) (fun r => let '(a, ws', e) := r in Q a ws' e).
Proof.
  intros A w ws ext c Q Hw H. apply wp_exists in H.
  destruct H as (a & m' & E & Wf & D & H). unfold on_words_ext. rewrite E. apply rwp_ok.
  apply H; [apply words_of_length|apply words_of_ok; [lia|assumption]|].
  intros i ext' Hi. apply (words_of_bit w ws ext); assumption.
Qed.

Lemma on_words_wp0 : forall A w ws (c : M A) (Q : A -> list Z -> Prop), 0 < w ->
  wp c (vmem ws nomem) (fun a m' => wf_mem w m' /\ same_dom (vmem ws nomem) m' /\
    forall ws', length ws' = length ws -> words_ok w ws' ->
      (forall i ext', 0 <= i -> bit w (vmem ws' ext') i = bit w m' i) ->
      Q a ws') ->
  rwp (on_words ws c) (fun r => let '(a, ws') := r in Q a ws').
Proof.
  intros A w ws c Q Hw H. unfold on_words. apply rwp_bind.
  eapply rwp_conseq; [apply (on_words_wp A w ws nomem c (fun a ws' _ => Q a ws') Hw);
    eapply wp_conseq; [exact H|]|].
  - intros a m' (H1 & H2 & H3). auto.
  - intros [[a ws'] e] Hq. apply rwp_ok. exact Hq.
Qed.

(** Contents. *)
Lemma vbits_length : forall w v, 0 < w -> vec_ok w v -> zlen (vbits w v) = vlen v.
Proof.
  intros w v Hw (H1 & H2 & H3). unfold zlen, vbits. rewrite firstn_length, list_bits_length by lia.
  lia.
Qed.

Lemma nth_firstn : forall A (l : list A) n i d, (i < n)%nat -> nth i (firstn n l) d = nth i l d.
Proof.
  intros A l. induction l as [|x l IH]; intros n i d H; destruct n; try lia; [reflexivity|].
  destruct i; [reflexivity|]. cbn. apply IH. lia.
Qed.

Lemma nth_skipn : forall A (l : list A) n i d, nth i (skipn n l) d = nth (n + i) l d.
Proof.
  intros A l. induction l as [|x l IH]; intros n i d.
  - rewrite skipn_nil. destruct i, n; reflexivity.
  - destruct n; [reflexivity|]. cbn. apply IH.
Qed.

Lemma vbits_nth : forall w v ext i, 0 < w -> vec_ok w v -> 0 <= i < vlen v ->
  get_at i (vbits w v) = bit w (vmem (vwords v) ext) i.
Proof.
  intros w v ext i Hw H Hi. unfold get_at, vbits. rewrite nth_firstn by lia.
  apply list_bits_bit; lia.
Qed.

Lemma list_ext : forall l l', zlen l = zlen l' ->
  (forall i, 0 <= i < zlen l -> get_at i l = get_at i l') -> l = l'.
Proof.
  intros l l' H1 H2. unfold zlen, get_at in *. apply (nth_ext l l' false false); [lia|].
  intros n Hn. specialize (H2 (Z.of_nat n)). rewrite Nat2Z.id in H2. apply H2. lia.
Qed.

Lemma vbits_eq : forall w v l, 0 < w -> vec_ok w v -> zlen l = vlen v ->
  (forall i, 0 <= i < vlen v -> bit w (vmem (vwords v) nomem) i = get_at i l) ->
  vbits w v = l.
Proof.
  intros w v l Hw H Hl Hb. pose proof (vbits_length w v Hw H) as Hn.
  apply list_ext; [lia|]. intros i Hi. rewrite (vbits_nth w v nomem) by (try assumption; lia).
  apply Hb. lia.
Qed.

Lemma zlen_app : forall A (l l' : list A), zlen (l ++ l') = zlen l + zlen l'.
Proof. intros. unfold zlen. rewrite app_length. lia. Qed.

Lemma get_app : forall l l' i, 0 <= i ->
  get_at i (l ++ l') = if i <? zlen l then get_at i l else get_at (i - zlen l) l'.
Proof.
  intros l l' i Hi. unfold get_at, zlen. destruct (Z.ltb_spec i (Z.of_nat (length l))) as [C|C].
  - apply app_nth1. lia.
  - rewrite app_nth2 by lia. f_equal. lia.
Qed.

Lemma zlen_firstn : forall A (l : list A) i, 0 <= i <= zlen l -> zlen (firstn (Z.to_nat i) l) = i.
Proof. intros A l i H. unfold zlen in *. rewrite firstn_length. lia. Qed.

Lemma zlen_skipn : forall A (l : list A) i, 0 <= i <= zlen l ->
  zlen (skipn (Z.to_nat i) l) = zlen l - i.
Proof. intros A l i H. unfold zlen in *. rewrite skipn_length. lia. Qed.

Lemma get_firstn : forall l i j, 0 <= j < i -> get_at j (firstn (Z.to_nat i) l) = get_at j l.
Proof. intros l i j H. unfold get_at. apply nth_firstn. lia. Qed.

Lemma get_skipn : forall l i j, 0 <= i -> 0 <= j ->
  get_at j (skipn (Z.to_nat i) l) = get_at (i + j) l.
Proof. intros l i j H H'. unfold get_at. rewrite nth_skipn. f_equal. lia. Qed.

Lemma zlen_insert : forall i x l, 0 <= i <= zlen l -> zlen (insert_at i x l) = zlen l + zlen x.
Proof.
  intros i x l H. unfold insert_at. rewrite !zlen_app, zlen_firstn, zlen_skipn by lia. lia.
Qed.

Lemma get_insert : forall i x l j, 0 <= i <= zlen l -> 0 <= j ->
  get_at j (insert_at i x l) =
  if j <? i then get_at j l else if j <? i + zlen x then get_at (j - i) x
  else get_at (j - zlen x) l.
Proof.
  intros i x l j H Hj. unfold insert_at. rewrite get_app by lia. rewrite zlen_firstn by lia.
  destruct (Z.ltb_spec j i) as [C|C]; [apply get_firstn; lia|].
  rewrite get_app by lia.
  destruct (Z.ltb_spec (j - i) (zlen x)) as [D|D];
  destruct (Z.ltb_spec j (i + zlen x)) as [E|E]; try lia; [reflexivity|].
  rewrite get_skipn by lia. f_equal. lia.
Qed.

Lemma zlen_erase : forall i j l, 0 <= i <= j -> j <= zlen l ->
  zlen (erase_at i j l) = zlen l - (j - i).
Proof.
  intros i j l H H'. unfold erase_at. rewrite zlen_app, zlen_firstn, zlen_skipn by lia. lia.
Qed.

Lemma get_erase : forall i j l k, 0 <= i <= j -> j <= zlen l -> 0 <= k ->
  get_at k (erase_at i j l) = if k <? i then get_at k l else get_at (k + (j - i)) l.
Proof.
  intros i j l k H H' Hk. unfold erase_at. rewrite get_app by lia. rewrite zlen_firstn by lia.
  destruct (Z.ltb_spec k i) as [C|C]; [apply get_firstn; lia|].
  rewrite get_skipn by lia. f_equal. lia.
Qed.

Lemma zlen_set : forall i b l, 0 <= i < zlen l -> zlen (set_at i b l) = zlen l.
Proof.
  intros i b l H. unfold set_at. rewrite !zlen_app, zlen_firstn, zlen_skipn by lia.
  change (zlen [b]) with 1. lia.
Qed.

Lemma get_set : forall i b l k, 0 <= i < zlen l -> 0 <= k ->
  get_at k (set_at i b l) = if k =? i then b else get_at k l.
Proof.
  intros i b l k H Hk. unfold set_at. rewrite get_app by lia. rewrite zlen_firstn by lia.
  destruct (Z.ltb_spec k i) as [C|C]; destruct (Z.eqb_spec k i) as [E|E]; try lia.
  - apply get_firstn; lia.
  - subst. rewrite get_app by lia. change (zlen [b]) with 1.
    destruct (Z.ltb_spec (i - i) 1); [|lia]. rewrite Z.sub_diag. reflexivity.
  - rewrite get_app by lia. change (zlen [b]) with 1.
    destruct (Z.ltb_spec (k - i) 1); [lia|]. rewrite get_skipn by lia. f_equal. lia.
Qed.

Lemma zlen_repeat : forall A (x : A) n, 0 <= n -> zlen (repeat x (Z.to_nat n)) = n.
Proof. intros. unfold zlen. rewrite repeat_length. lia. Qed.

Lemma get_repeat : forall b n i, 0 <= i < n -> get_at i (repeat b (Z.to_nat n)) = b.
Proof.
  intros b n i H. unfold get_at. apply (repeat_spec (Z.to_nat n) b). apply nth_In.
  rewrite repeat_length. lia.
Qed.

Lemma zlen_slice : forall i j l, 0 <= i <= j -> j <= zlen l -> zlen (slice i j l) = j - i.
Proof.
  intros i j l H H'. unfold slice. rewrite zlen_firstn; [lia|]. rewrite zlen_skipn; lia.
Qed.

Lemma get_slice : forall i j l k, 0 <= i <= j -> 0 <= k < j - i ->
  get_at k (slice i j l) = get_at (i + k) l.
Proof. intros i j l k H H'. unfold slice. rewrite get_firstn by lia. apply get_skipn; lia. Qed.

Lemma removelast_firstn' : forall (l : list bool), removelast l = firstn (Z.to_nat (zlen l - 1)) l.
Proof.
  intros l. rewrite removelast_firstn_len. unfold zlen. f_equal. lia.
Qed.

Lemma last_get : forall l, l <> [] -> last l false = get_at (zlen l - 1) l.
Proof.
  intros l H. destruct (exists_last H) as (l' & x & E). subst l.
  rewrite last_last. rewrite zlen_app. change (zlen [x]) with 1. unfold zlen.
  rewrite get_app by lia. unfold zlen.
  destruct (Z.ltb_spec (Z.of_nat (length l') + 1 - 1) (Z.of_nat (length l'))) as [C|C]; [lia|].
  replace (Z.of_nat (length l') + 1 - 1 - Z.of_nat (length l')) with 0 by lia. reflexivity.
Qed.

Lemma nil_zlen : forall A (l : list A), l <> [] -> 0 < zlen l.
Proof. intros A [|x l] H; [congruence|]. unfold zlen. cbn. lia. Qed.
