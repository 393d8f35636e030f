(** C58: programs written against iterators, references and pointers to bits. *)
From Coq Require Import ZArith Bool List Lia.
From Verif Require Import Base IterModel RefModel GenericModel Spec SpecRef SpecGeneric Demo ProofGeneric.
Import ListNotations.
Open Scope Z_scope.

(** Any program that uses bits through iterators, references and pointers does what it
    does on arrays of booleans: as long as it does nothing that is not allowed there,
    nothing undefined happens, it returns the same result after the same number of
    operations or goes on just as long, the bits then have the values of the elements,
    and no other bit has changed. *)
Theorem C58_programs : forall A p w m lo arr n (c : client A) e s,
  valid_w w -> wf_mem w m -> laid_out w m lo arr -> designates w lo arr e s ->
  match sexec n c s arr with
  | Returned a arr' => exists m', exec p w n c e m = Ok (a, m') /\ wf_mem w m' /\ same_dom m m' /\
      laid_out w m' lo arr' /\ forall i, elsewhere lo arr i -> bit w m' i = bit w m i
  | Running => exec p w n c e m = Fuel
  | NotAllowed => True
  end.
Proof. exact programs_ok. Qed.
Print Assumptions C58_programs.

(** A partition of the seven bits from bit 3 on, clear bits first, by a loop that moves
    two iterators towards each other and swaps through references; then the last set
    bit is reached with a pointer and copied into the second array, which begins in
    the middle of word 1 where the first one ends. The result is the number of clear
    bits. *)
Example C58_programs_example :
  let m := mem_of [170; 85] in
  let lo := fun k => match k with O => 3 | _ => 10 end in
  let arr := fun k => match k with
    | O => [true; false; true; false; true; true; false]
    | S O => [true; false; true]
    | _ => [] end in
  let e := Env (fun x => match x with O => It 0 3 | S O => It 1 2 | _ => It 0 3 end)
               (fun _ => Ref 1 8) (fun _ => Ptr (Some 0) 1) in
  let s := SEnv (fun x => match x with O => Some (0%nat, 0) | S O => Some (0%nat, 7) | S (S O) => Some (0%nat, 0) | _ => None end)
                (fun x => match x with O => Some (1%nat, 1) | _ => None end) (fun _ => None) in
  let num := fun x : reply => match x with NumReply n => n | _ => 0 end in
  let yes := fun x : reply => match x with BoolReply b => b | _ => false end in
  let finish :=
    Do (RIndex 1 2 5) (fun _ => Do (PAddr 0 1) (fun _ => Do (PIncr 0) (fun _ => Do (PDeref 2 0) (fun _ =>
    Do (RCopy 0 2) (fun _ => Do (IDist 0 2) (fun d => Return (num d))))))) in
  let prog := (cofix loop : client Z :=
    Do (ICmp CEq 0 1) (fun b => if yes b then finish else
    Do (RDeref 1 0) (fun _ => Do (RGet 1) (fun b => if yes b
      then Do (IDecr 1) (fun _ => Do (RDeref 2 1) (fun _ => Do (RSwap 1 2) (fun _ => loop)))
      else Do (IIncr 0) (fun _ => loop))))) in
  valid_w 8 /\ wf_mem 8 m /\ laid_out 8 m lo arr /\ designates 8 lo arr e s /\
  (exists arr', sexec 100 prog s arr = Returned 3 arr' /\
     arr' 0%nat = [false; false; false; true; true; true; true] /\ arr' 1%nat = [true; true; true]) /\
  run 2 (exec Strict17 8 100 prog e) [170; 85] = Ok (3, map Some [194; 95]).
Proof.
  cbv zeta. split; [demo|]. split; [demo|]. split; [|split; [|split; [|vm_compute; reflexivity]]].
  - split.
    + intros k. destruct k as [|[|k]]; unfold size; cbn [length]; (split; [unfold max_bits; lia|]);
        (split; [demo|]); intros i Hi; [| |lia].
      * assert (i = 0 \/ i = 1 \/ i = 2 \/ i = 3 \/ i = 4 \/ i = 5 \/ i = 6) as C by lia.
        repeat destruct C as [->|C]; [reflexivity..|subst i; reflexivity].
      * assert (i = 0 \/ i = 1 \/ i = 2) as C by lia.
        repeat destruct C as [->|C]; [reflexivity..|subst i; reflexivity].
    + intros k l i j N. destruct k as [|[|k]], l as [|[|l]]; unfold size; cbn [length]; lia.
  - split; [|split].
    + intros x k i E. destruct x as [|[|[|x]]]; [injection E as <- <-..|discriminate E];
        (split; [reflexivity|]); (split; [demo|reflexivity]).
    + intros x k i E. destruct x as [|x]; [injection E as <- <-|discriminate E].
      split; [reflexivity|]. exists 1, 3. split; [lia|split; reflexivity].
    + intros x k i E. discriminate E.
  - eexists. split; [vm_compute; reflexivity|split; reflexivity].
Qed.

(** The word type is not visible: the same program on the same elements, in words of
    another type and at other places in them, returns the same result and leaves the
    same elements. *)
Theorem C58_widths : forall A p1 p2 w1 w2 m1 m2 lo1 lo2 arr n (c : client A) e1 e2 s,
  valid_w w1 -> valid_w w2 -> wf_mem w1 m1 -> wf_mem w2 m2 ->
  laid_out w1 m1 lo1 arr -> laid_out w2 m2 lo2 arr ->
  designates w1 lo1 arr e1 s -> designates w2 lo2 arr e2 s ->
  sexec n c s arr <> NotAllowed ->
  (exec p1 w1 n c e1 m1 = Fuel /\ exec p2 w2 n c e2 m2 = Fuel) \/
  exists a m1' m2', exec p1 w1 n c e1 m1 = Ok (a, m1') /\ exec p2 w2 n c e2 m2 = Ok (a, m2') /\
    forall k i, 0 <= i < size arr k -> bit w1 m1' (lo1 k + i) = bit w2 m2' (lo2 k + i).
Proof. exact widths_ok. Qed.
Print Assumptions C58_widths.

(** The same loop over one array as bits 3 to 9 of bytes and as bits 14 to 20 of
    16-bit words: it turns every element over and counts the set ones by a pointer. *)
Example C58_widths_example :
  let arr := fun k => match k with O => [true; false; true; false; true; true; false] | _ => [] end in
  let e1 := Env (fun x => match x with O => It 0 3 | _ => It 1 2 end) (fun _ => Ref 0 1) (fun _ => ptr_null) in
  let e2 := Env (fun x => match x with O => It 0 14 | _ => It 1 5 end) (fun _ => Ref 0 1) (fun _ => ptr_null) in
  let s := SEnv (fun x => match x with O => Some (0%nat, 0) | S O => Some (0%nat, 7) | _ => None end)
                (fun _ => None) (fun _ => None) in
  let yes := fun x : reply => match x with BoolReply b => b | _ => false end in
  let prog := (cofix loop (n : Z) : client Z :=
    Do (ICmp CLt 0 1) (fun b => if yes b then
      Do (RDeref 0 0) (fun _ => Do (PAddr 0 0) (fun _ => Do (RFlip 0) (fun _ =>
      Do (PDeref 1 0) (fun _ => Do (RGet 1) (fun b => Do (IIncr 0) (fun _ =>
      loop (if yes b then n + 1 else n)))))))
      else Return n)) 0 in
  valid_w 8 /\ valid_w 16 /\ wf_mem 8 (mem_of [170; 85]) /\ wf_mem 16 (mem_of [16384; 13]) /\
  laid_out 8 (mem_of [170; 85]) (fun _ => 3) arr /\ laid_out 16 (mem_of [16384; 13]) (fun _ => 14) arr /\
  designates 8 (fun _ => 3) arr e1 s /\ designates 16 (fun _ => 14) arr e2 s /\
  sexec 100 prog s arr <> NotAllowed /\
  run 2 (exec Strict17 8 100 prog e1) [170; 85] = Ok (3, map Some [82; 86]) /\
  run 2 (exec (Hw (fun _ _ _ => 0)) 16 100 prog e2) [16384; 13] = Ok (3, map Some [32768; 18]).
Proof.
  assert (L : forall w m a arr l, arr = (fun k => match k with O => l | _ => [] end) ->
    Z.of_nat (length l) <= max_bits -> mapped w m a (a + Z.of_nat (length l)) ->
    (forall i, 0 <= i < Z.of_nat (length l) -> bit w m (a + i) = nth (Z.to_nat i) l false) ->
    laid_out w m (fun _ => a) arr).
  { intros w m a arr l -> H1 H2 H3. split.
    - intros [|k]; [auto|]. unfold size. cbn [length Z.of_nat]. split; [unfold max_bits; lia|].
      split; [intros i Hi; lia|intros i Hi; lia].
    - intros [|k] [|k'] i j N; unfold size; cbn [length Z.of_nat]; lia. }
  cbv zeta. split; [demo|]. split; [demo|]. split; [demo|]. split; [demo|].
  split; [|split; [|split; [|split; [|split; [|vm_compute; split; reflexivity]]]]].
  - eapply L; [reflexivity|unfold max_bits; cbn; lia|cbn [length]; demo|]. cbn [length]. intros i Hi.
    assert (i = 0 \/ i = 1 \/ i = 2 \/ i = 3 \/ i = 4 \/ i = 5 \/ i = 6) as C by lia.
    repeat destruct C as [->|C]; [reflexivity..|subst i; reflexivity].
  - eapply L; [reflexivity|unfold max_bits; cbn; lia|cbn [length]; demo|]. cbn [length]. intros i Hi.
    assert (i = 0 \/ i = 1 \/ i = 2 \/ i = 3 \/ i = 4 \/ i = 5 \/ i = 6) as C by lia.
    repeat destruct C as [->|C]; [reflexivity..|subst i; reflexivity].
  - split; [|split; intros x k i E; discriminate E].
    intros x k i E. destruct x as [|[|x]]; [injection E as <- <-..|discriminate E];
      (split; [reflexivity|]); (split; [demo|reflexivity]).
  - split; [|split; intros x k i E; discriminate E].
    intros x k i E. destruct x as [|[|x]]; [injection E as <- <-..|discriminate E];
      (split; [reflexivity|]); (split; [demo|reflexivity]).
  - vm_compute. discriminate.
Qed.
