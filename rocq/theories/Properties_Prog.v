(** C68: programs that use iterators, references and pointers to bits and the
    algorithms. *)
From Coq Require Import ZArith Bool List Lia.
From Verif Require Import Base IterModel RefModel PopcntModel GenericModel ProgModel Spec SpecRef
  SpecGeneric SpecProg Demo ProofProg.
Import ListNotations.
Open Scope Z_scope.

(** Any program that works on arrays of bits through iterators, references, pointers and
    the algorithms does what it does on arrays of booleans. As long as it does nothing
    that is not allowed there, nothing undefined happens; it returns the same result
    after the same number of operations, or goes on just as long; the bits then have the
    values of the elements, and no other bit has changed. *)
Theorem C68_programs : forall A t p w m lo arr n (c : prog A) e s,
  valid_w w -> w <= 64 -> (exists c, t = X86 c) \/ t = Neon true -> full_blend_defined p w ->
  wf_mem w m -> laid_out w m lo arr -> (forall k, size arr k < 2 ^ 32) ->
  designates w lo arr e s ->
  match sprun n c s arr with
  | Returned a arr' => exists m', prun t p w n c e m = Ok (a, m') /\ wf_mem w m' /\ same_dom m m' /\
      laid_out w m' lo arr' /\ forall i, elsewhere lo arr i -> bit w m' i = bit w m i
  | Running => prun t p w n c e m = Fuel
  | NotAllowed => True
  end.
Proof. exact alg_programs_ok. Qed.
Print Assumptions C68_programs.

(** Two arrays, bits 3 to 21 and bits 22 to 40 of six bytes. Every run of ones in the
    first is found with find and turned into zeros through a reference, bit by bit, and
    counted; then the first array is rotated, reversed, partly shifted, combined with the
    second by exclusive or, exchanged with it and compared. *)
Example C68_programs_example :
  let l := [170; 85; 15; 240; 60; 195] in
  let m := mem_of l in
  let lo := fun k => match k with O => 3 | _ => 22 end in
  let arr := fun k => match k with
    | O => map (fun i => bit 8 m (3 + Z.of_nat i)) (seq 0 19)
    | S O => map (fun i => bit 8 m (22 + Z.of_nat i)) (seq 0 19)
    | _ => [] end in
  let e := Env (fun x => match x with O => It 0 3 | S O => It 2 6 | S (S O) => It 5 1 | _ => It 0 3 end)
               (fun _ => Ref 0 1) (fun _ => ptr_null) in
  let s := SEnv (fun x => match x with
      | O => Some (0%nat, 0) | S O => Some (0%nat, 19) | S (S O) => Some (1%nat, 19)
      | S (S (S O)) => Some (0%nat, 0) | S (S (S (S O))) => Some (0%nat, 0) | _ => None end)
      (fun _ => None) (fun _ => None) in
  let num := fun x : reply => match x with NumReply n => n | _ => 0 end in
  let yes := fun x : reply => match x with BoolReply b => b | _ => false end in
  let finish := fun n =>
    Then (PFill 0 1 true) (fun _ => Then (POp (IPlus 5 0 4)) (fun _ => Then (PFill 0 5 false) (fun _ =>
    Then (PRotate 6 0 5 1) (fun _ => Then (PReverse 6 1) (fun _ =>
    Then (PShiftLeft 7 0 6 3 false) (fun _ => Then (POp (IMinus 8 2 19)) (fun _ =>
    Then (PTransform2 xorb 9 0 1 8 0) (fun _ => Then (PSwapRanges 9 0 1 8) (fun _ =>
    Then (PCount 0 1 true) (fun a => Then (PEqual 0 6 8) (fun b =>
    Finish (n, num a, yes b)))))))))))) in
  let prog := (cofix loop (n : Z) : prog (Z * Z * bool) :=
    Then (PFind 3 3 1 true) (fun _ => Then (POp (ICmp CEq 3 1)) (fun b => if yes b then finish n else
    Then (POp (RDeref 0 3)) (fun _ => Then (POp (RReset 0)) (fun _ => loop (n + 1)))))) 0 in
  valid_w 8 /\ 8 <= 64 /\ full_blend_defined Strict20 8 /\ wf_mem 8 m /\ laid_out 8 m lo arr /\
  (forall k, size arr k < 2 ^ 32) /\ designates 8 lo arr e s /\
  (exists arr', sprun 100 prog s arr = Returned (11, 9, false) arr' /\
     arr' 0%nat = map (fun i => bit 8 m (22 + Z.of_nat i)) (seq 0 19)) /\
  run 6 (prun (X86 (Cpu true true true)) Strict20 8 100 prog e) l = Ok ((11, 9, false), map Some [2; 158; 231; 15; 63; 195]).
Proof.
  cbv zeta. split; [demo|]. split; [lia|]. split; [cbn; lia|]. split; [demo|].
  split; [|split; [|split; [|split; [|vm_compute; reflexivity]]]].
  - split.
    + assert (Nx : forall m a n i, 0 <= i < Z.of_nat n ->
        bit 8 m (a + i) = nth (Z.to_nat i) (map (fun i => bit 8 m (a + Z.of_nat i)) (seq 0 n)) false).
      { intros m a n i Hi. rewrite (nth_indep _ false (bit 8 m (a + Z.of_nat 0)))
          by (rewrite map_length, seq_length; lia).
        rewrite (map_nth (fun i => bit 8 m (a + Z.of_nat i))), seq_nth by lia. f_equal. lia. }
      intros k. destruct k as [|[|k]]; unfold size; rewrite ?map_length, ?seq_length; cbn [length];
        (split; [unfold max_bits; lia|]); (split; [demo|]); intros i Hi; [exact (Nx _ 3 19%nat i Hi)|exact (Nx _ 22 19%nat i Hi)|lia].
    + intros k l i j N. destruct k as [|[|k]], l as [|[|l]]; unfold size; cbn [length map seq]; lia.
  - intros [|[|k]]; unfold size; cbn [length map seq]; lia.
  - split; [|split].
    + intros x k i E. destruct x as [|[|[|[|[|x]]]]]; [injection E as <- <-..|discriminate E];
        (split; [reflexivity|]); (split; [demo|reflexivity]).
    + intros x k i E. discriminate E.
    + intros x k i E. discriminate E.
  - eexists. split; [vm_compute; reflexivity|vm_compute; reflexivity].
Qed.

(** The word type, the machine and the place in memory are not visible: the same program
    on the same elements returns the same result and leaves the same elements. *)
Theorem C68_widths : forall A t1 t2 p1 p2 w1 w2 m1 m2 lo1 lo2 arr n (c : prog A) e1 e2 s,
  valid_w w1 -> valid_w w2 -> w1 <= 64 -> w2 <= 64 -> (exists c, t1 = X86 c) \/ t1 = Neon true ->
  (exists c, t2 = X86 c) \/ t2 = Neon true -> full_blend_defined p1 w1 -> full_blend_defined p2 w2 ->
  wf_mem w1 m1 -> wf_mem w2 m2 -> laid_out w1 m1 lo1 arr -> laid_out w2 m2 lo2 arr ->
  (forall k, size arr k < 2 ^ 32) ->
  designates w1 lo1 arr e1 s -> designates w2 lo2 arr e2 s ->
  sprun n c s arr <> NotAllowed ->
  (prun t1 p1 w1 n c e1 m1 = Fuel /\ prun t2 p2 w2 n c e2 m2 = Fuel) \/
  exists a m1' m2', prun t1 p1 w1 n c e1 m1 = Ok (a, m1') /\ prun t2 p2 w2 n c e2 m2 = Ok (a, m2') /\
    forall k i, 0 <= i < size arr k -> bit w1 m1' (lo1 k + i) = bit w2 m2' (lo2 k + i).
Proof. exact alg_widths_ok. Qed.
Print Assumptions C68_widths.

(** Seven elements, as bits 3 to 9 of bytes and as bits 14 to 20 of 16-bit words on
    another machine: rotated until the first element is set, with the number of
    rotations counted, then reversed. *)
Example C68_widths_example :
  let arr := fun k => match k with O => [false; false; true; false; true; true; false] | _ => [] end in
  let e1 := Env (fun x => match x with O => It 0 3 | _ => It 1 2 end) (fun _ => Ref 0 1) (fun _ => ptr_null) in
  let e2 := Env (fun x => match x with O => It 0 14 | _ => It 1 5 end) (fun _ => Ref 0 1) (fun _ => ptr_null) in
  let s := SEnv (fun x => match x with O => Some (0%nat, 0) | S O => Some (0%nat, 7) | _ => None end)
                (fun _ => None) (fun _ => None) in
  let yes := fun x : reply => match x with BoolReply b => b | _ => false end in
  let prog := (cofix loop (n : Z) : prog Z :=
    Then (POp (RDeref 0 0)) (fun _ => Then (POp (RGet 0)) (fun b => if yes b
      then Then (PReverse 0 1) (fun _ => Finish n)
      else Then (POp (IPlus 2 0 1)) (fun _ => Then (PRotate 3 0 2 1) (fun _ => loop (n + 1)))))) 0 in
  let m1 := mem_of [160; 1] in let m2 := mem_of [0; 13] in
  valid_w 8 /\ valid_w 16 /\ 8 <= 64 /\ 16 <= 64 /\ full_blend_defined Strict20 8 /\
  full_blend_defined (Hw (fun _ _ _ => 0)) 16 /\ wf_mem 8 m1 /\ wf_mem 16 m2 /\
  laid_out 8 m1 (fun _ => 3) arr /\ laid_out 16 m2 (fun _ => 14) arr /\ (forall k, size arr k < 2 ^ 32) /\
  designates 8 (fun _ => 3) arr e1 s /\ designates 16 (fun _ => 14) arr e2 s /\
  sprun 100 prog s arr <> NotAllowed /\
  run 2 (prun (X86 (Cpu true true true)) Strict20 8 100 prog e1) [160; 1] = Ok (2, map Some [192; 2]) /\
  run 2 (prun (Neon true) (Hw (fun _ _ _ => 0)) 16 100 prog e2) [0; 13] = Ok (2, map Some [0; 22]).
Proof.
  assert (L : forall w m a arr l, arr = (fun k => match k with O => l | _ => [] end) ->
    Z.of_nat (length l) <= max_bits -> mapped w m a (a + Z.of_nat (length l)) ->
    (forall i, 0 <= i < Z.of_nat (length l) -> bit w m (a + i) = nth (Z.to_nat i) l false) ->
    laid_out w m (fun _ => a) arr).
  { intros w m a arr l -> H1 H2 H3. split.
    - intros [|k]; [auto|]. unfold size. cbn [length Z.of_nat]. split; [unfold max_bits; lia|].
      split; [intros i Hi; lia|intros i Hi; lia].
    - intros [|k] [|k'] i j N; unfold size; cbn [length Z.of_nat]; lia. }
  cbv zeta. split; [demo|]. split; [demo|]. split; [lia|]. split; [lia|]. split; [cbn; lia|]. split; [exact I|]. split; [demo|].
  split; [demo|].
  split; [|split; [|split; [|split; [|split; [|split; [|vm_compute; split; reflexivity]]]]]].
  - eapply L; [reflexivity|unfold max_bits; cbn; lia|cbn [length]; demo|]. cbn [length]. intros i Hi.
    assert (i = 0 \/ i = 1 \/ i = 2 \/ i = 3 \/ i = 4 \/ i = 5 \/ i = 6) as C by lia.
    repeat destruct C as [->|C]; [reflexivity..|subst i; reflexivity].
  - eapply L; [reflexivity|unfold max_bits; cbn; lia|cbn [length]; demo|]. cbn [length]. intros i Hi.
    assert (i = 0 \/ i = 1 \/ i = 2 \/ i = 3 \/ i = 4 \/ i = 5 \/ i = 6) as C by lia.
    repeat destruct C as [->|C]; [reflexivity..|subst i; reflexivity].
  - intros [|k]; unfold size; cbn [length]; lia.
  - split; [|split; intros x k i E; discriminate E].
    intros x k i E. destruct x as [|[|x]]; [injection E as <- <-..|discriminate E];
      (split; [reflexivity|]); (split; [demo|reflexivity]).
  - split; [|split; intros x k i E; discriminate E].
    intros x k i E. destruct x as [|[|x]]; [injection E as <- <-..|discriminate E];
      (split; [reflexivity|]); (split; [demo|reflexivity]).
  - vm_compute. discriminate.
Qed.
