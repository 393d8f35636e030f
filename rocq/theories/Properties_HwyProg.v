(** Property C74: programs in the BITLIB_HWY build. *)
From Coq Require Import ZArith Bool List Lia.
From Verif Require Import Base IterModel RefModel PopcntModel HwyModel GenericModel ProgModel
  HwyProgModel Spec SpecRef SpecHwy SpecStd SpecGeneric SpecProg SpecHwyProg Demo
  ProofHwyProg ProofHwyProgLang.
Import ListNotations.
Open Scope Z_scope.

(** Any program that works on arrays of bits through iterators, references, pointers and
    the algorithms does in the vector build what it does on arrays of booleans, on any
    machine, with vectors of any length dividing 64 bytes and wherever memory begins. *)
Theorem C74_programs : forall A t o h w m lo arr n (c : prog A) e s,
  valid_w w -> w <= 64 -> vector_fits h w -> (exists c, t = X86 c) \/ t = Neon true ->
  wf_mem w m -> laid_out w m lo arr -> (forall k, size arr k < 2 ^ 32) ->
  designates w lo arr e s ->
  match sprun n c s arr with
  | Returned a arr' => exists m', prun_hwy t (Hw o) h w n c e m = Ok (a, m') /\ wf_mem w m' /\
      same_dom m m' /\ laid_out w m' lo arr' /\
      forall i, elsewhere lo arr i -> bit w m' i = bit w m i
  | Running => prun_hwy t (Hw o) h w n c e m = Fuel
  | NotAllowed => True
  end.
Proof. exact hwy_programs_ok. Qed.
Print Assumptions C74_programs.

(** An array of 150 bits in 20 bytes, and vectors of four bytes. The program finds the
    first seven set bits and clears them one by one, then shifts, rotates, reverses and
    fills parts of the array and counts. *)
Example C74_programs_example :
  let l := [1; 2; 3; 5; 8; 13; 21; 34; 55; 89; 144; 233; 251; 7; 11; 18; 29; 47; 76; 123] in
  let m := mem_of l in
  let arr := fun k => match k with
    | O => map (fun i => bit 8 m (3 + Z.of_nat i)) (seq 0 150)
    | _ => [] end in
  let e := Env (fun x => match x with O => It 0 3 | S O => It 19 1 | _ => It 0 3 end)
               (fun _ => Ref 0 1) (fun _ => ptr_null) in
  let s := SEnv (fun x => match x with
      | O => Some (0%nat, 0) | S O => Some (0%nat, 150) | S (S O) => Some (0%nat, 0) | _ => None end)
      (fun _ => None) (fun _ => None) in
  let yes := fun x : reply => match x with BoolReply b => b | _ => false end in
  let num := fun x : reply => match x with NumReply n => n | _ => 0 end in
  let finish := fun n : Z =>
    Then (PShiftRight 3 0 1 13 true) (fun _ => Then (POp (IPlus 4 0 5)) (fun _ =>
    Then (PRotate 5 0 4 1) (fun _ => Then (PReverse 4 1) (fun _ =>
    Then (PShiftLeft 6 0 1 21 false) (fun _ => Then (PFill 4 3 true) (fun _ =>
    Then (PCount 0 1 true) (fun a => Finish (n, num a)))))))) in
  let prog := (cofix loop (n : Z) : prog (Z * Z) :=
    Then (PFind 2 2 1 true) (fun _ => if n =? 7 then finish n else
    Then (POp (RDeref 0 2)) (fun _ => Then (POp (RReset 0)) (fun _ => loop (n + 1))))) 0 in
  valid_w 8 /\ 8 <= 64 /\ vector_fits (Unit 4 3) 8 /\ wf_mem 8 m /\ laid_out 8 m (fun _ => 3) arr /\
  (forall k, size arr k < 2 ^ 32) /\ designates 8 (fun _ => 3) arr e s /\
  (exists arr', sprun 100 prog s arr = Returned (7, 49) arr') /\
  run 20 (prun_hwy (X86 (Cpu true true true)) (Hw (fun _ _ _ => 77)) (Unit 4 3) 8 100 prog e) l
    = Ok ((7, 49), map Some [137; 255; 13; 254; 125; 153; 160; 201; 78; 132; 10; 3; 0; 0; 0; 0;
                             14; 0; 0; 122]).
Proof.
  cbv zeta. split; [demo|]. split; [lia|]. split; [unfold vector_fits; cbn; lia|]. split; [demo|].
  split; [|split; [|split; [|split; [|vm_compute; reflexivity]]]].
  - split.
    + assert (Nx : forall m a n i, 0 <= i < Z.of_nat n ->
        bit 8 m (a + i) = nth (Z.to_nat i) (map (fun i => bit 8 m (a + Z.of_nat i)) (seq 0 n)) false).
      { intros m a n i Hi. rewrite (nth_indep _ false (bit 8 m (a + Z.of_nat 0)))
          by (rewrite map_length, seq_length; lia).
        rewrite (map_nth (fun i => bit 8 m (a + Z.of_nat i))), seq_nth by lia. f_equal. lia. }
      intros k. destruct k as [|k]; unfold size; rewrite ?map_length, ?seq_length; cbn [length];
        (split; [unfold max_bits; lia|]); (split; [demo|]); intros i Hi; [exact (Nx _ 3 150%nat i Hi)|lia].
    + intros k l i j N. destruct k as [|k], l as [|l]; unfold size; cbn [length map seq]; lia.
  - intros [|k]; unfold size; cbn [length map seq]; lia.
  - split; [|split].
    + intros x k i E. destruct x as [|[|[|x]]]; [injection E as <- <-..|discriminate E];
        (split; [reflexivity|]); (split; [demo|reflexivity]).
    + intros x k i E. discriminate E.
    + intros x k i E. discriminate E.
  - eexists. vm_compute. reflexivity.
Qed.

(** The macro cannot be observed: both builds go on just as long, or return the same result
    and leave the same words. *)
Theorem C74_builds : forall A t o h w m lo arr n (c : prog A) e s,
  valid_w w -> w <= 64 -> vector_fits h w -> (exists c, t = X86 c) \/ t = Neon true ->
  wf_mem w m -> laid_out w m lo arr -> (forall k, size arr k < 2 ^ 32) ->
  designates w lo arr e s -> sprun n c s arr <> NotAllowed ->
  (prun_hwy t (Hw o) h w n c e m = Fuel /\ prun t (Hw o) w n c e m = Fuel) \/
  agree (prun_hwy t (Hw o) h w n c e) (prun t (Hw o) w n c e) m.
Proof. exact hwy_builds_ok. Qed.
Print Assumptions C74_builds.

(** Seven elements, bits 14 to 20 of 16-bit words, rotated until the first one is set. *)
Example C74_builds_example :
  let arr := fun k => match k with O => [false; false; true; false; true; true; false] | _ => [] end in
  let e := Env (fun x => match x with O => It 0 14 | _ => It 1 5 end) (fun _ => Ref 0 1) (fun _ => ptr_null) in
  let s := SEnv (fun x => match x with O => Some (0%nat, 0) | S O => Some (0%nat, 7) | _ => None end)
                (fun _ => None) (fun _ => None) in
  let yes := fun x : reply => match x with BoolReply b => b | _ => false end in
  let prog := (cofix loop (n : Z) : prog Z :=
    Then (POp (RDeref 0 0)) (fun _ => Then (POp (RGet 0)) (fun b => if yes b
      then Then (PReverse 0 1) (fun _ => Finish n)
      else Then (POp (IPlus 2 0 1)) (fun _ => Then (PRotate 3 0 2 1) (fun _ => loop (n + 1)))))) 0 in
  let m := mem_of [0; 13] in
  valid_w 16 /\ 16 <= 64 /\ vector_fits (Unit 2 6) 16 /\ wf_mem 16 m /\
  laid_out 16 m (fun _ => 14) arr /\ (forall k, size arr k < 2 ^ 32) /\
  designates 16 (fun _ => 14) arr e s /\ sprun 100 prog s arr <> NotAllowed /\
  run 2 (prun_hwy (Neon true) (Hw (fun _ _ _ => 0)) (Unit 2 6) 16 100 prog e) [0; 13] = Ok (2, map Some [0; 22]) /\
  run 2 (prun (Neon true) (Hw (fun _ _ _ => 0)) 16 100 prog e) [0; 13] = Ok (2, map Some [0; 22]).
Proof.
  cbv zeta. split; [demo|]. split; [lia|]. split; [unfold vector_fits; cbn; lia|]. split; [demo|].
  split; [|split; [|split; [|split; [|vm_compute; split; reflexivity]]]].
  - split.
    + intros [|k]; unfold size; cbn [length Z.of_nat]; (split; [unfold max_bits; lia|]); (split; [demo|]);
        intros i Hi; [|lia]. cbn in Hi.
      assert (i = 0 \/ i = 1 \/ i = 2 \/ i = 3 \/ i = 4 \/ i = 5 \/ i = 6) as C by lia.
      repeat destruct C as [->|C]; [reflexivity..|subst i; reflexivity].
    + intros [|k] [|k'] i j N; unfold size; cbn [length Z.of_nat]; lia.
  - intros [|k]; unfold size; cbn [length]; lia.
  - split; [|split; intros x k i E; discriminate E].
    intros x k i E. destruct x as [|[|x]]; [injection E as <- <-..|discriminate E];
      (split; [reflexivity|]); (split; [demo|reflexivity]).
  - vm_compute. discriminate.
Qed.

(** The same under the C++20 rules, for words of fewer than 32 bits and programs in which no
    operation looks at a word in front of its array. *)
Theorem C74_programs_language : forall A t h w m lo arr n (c : prog A) e s,
  valid_w w -> w < 32 -> vector_fits h w -> (exists c, t = X86 c) \/ t = Neon true ->
  wf_mem w m -> laid_out w m lo arr -> (forall k, size arr k < 2 ^ 32) ->
  designates w lo arr e s -> prog_inside h w lo n c s arr ->
  match sprun n c s arr with
  | Returned a arr' => exists m', prun_hwy t Strict20 h w n c e m = Ok (a, m') /\ wf_mem w m' /\
      same_dom m m' /\ laid_out w m' lo arr' /\
      forall i, elsewhere lo arr i -> bit w m' i = bit w m i
  | Running => prun_hwy t Strict20 h w n c e m = Fuel
  | NotAllowed => True
  end.
Proof. exact programs_language_ok. Qed.
Print Assumptions C74_programs_language.

(** 100 bits from bit 3 of bytes 0 to 12, vectors of eight bytes, word 0 at byte 32. The
    operations begin 50 bits into the array. *)
Example C74_programs_language_example :
  let l := [1; 2; 3; 5; 8; 13; 21; 34; 55; 89; 144; 233; 251] in
  let m := mem_of l in
  let arr := fun k => match k with
    | O => map (fun i => bit 8 m (3 + Z.of_nat i)) (seq 0 100)
    | _ => [] end in
  let e := Env (fun x => match x with O => It 6 5 | S O => It 12 7 | _ => It 0 3 end)
               (fun _ => Ref 0 1) (fun _ => ptr_null) in
  let s := SEnv (fun x => match x with
      | O => Some (0%nat, 50) | S O => Some (0%nat, 100) | _ => None end)
      (fun _ => None) (fun _ => None) in
  let prog := Then (PShiftRight 3 0 1 5 true) (fun _ => Then (PReverse 0 1) (fun _ =>
    Then (PFind 4 0 1 true) (fun _ => Finish 0))) in
  valid_w 8 /\ 8 < 32 /\ vector_fits (Unit 8 32) 8 /\ wf_mem 8 m /\ laid_out 8 m (fun _ => 3) arr /\
  (forall k, size arr k < 2 ^ 32) /\ designates 8 (fun _ => 3) arr e s /\
  prog_inside (Unit 8 32) 8 (fun _ => 3) 10 prog s arr /\
  (exists arr', sprun 10 prog s arr = Returned 0 arr') /\
  run 13 (prun_hwy (X86 (Cpu true true true)) Strict20 (Unit 8 32) 8 10 prog e) l
    = Ok (0, map Some [1; 2; 3; 5; 8; 13; 245; 203; 4; 77; 118; 34; 252]).
Proof.
  cbv zeta. split; [demo|]. split; [lia|]. split; [unfold vector_fits; cbn; lia|]. split; [demo|].
  split; [|split; [|split; [|split; [|split; [|vm_compute; reflexivity]]]]].
  - split.
    + assert (Nx : forall m a n i, 0 <= i < Z.of_nat n ->
        bit 8 m (a + i) = nth (Z.to_nat i) (map (fun i => bit 8 m (a + Z.of_nat i)) (seq 0 n)) false).
      { intros m a n i Hi. rewrite (nth_indep _ false (bit 8 m (a + Z.of_nat 0)))
          by (rewrite map_length, seq_length; lia).
        rewrite (map_nth (fun i => bit 8 m (a + Z.of_nat i))), seq_nth by lia. f_equal. lia. }
      intros k. destruct k as [|k]; unfold size; rewrite ?map_length, ?seq_length; cbn [length];
        (split; [unfold max_bits; lia|]); (split; [demo|]); intros i Hi; [exact (Nx _ 3 100%nat i Hi)|lia].
    + intros k l i j N. destruct k as [|k], l as [|l]; unfold size; cbn [length map seq]; lia.
  - intros [|k]; unfold size; cbn [length map seq]; lia.
  - split; [|split; intros x k i E; discriminate E].
    intros x k i E. destruct x as [|[|x]]; [injection E as <- <-..|discriminate E];
      (split; [reflexivity|]); (split; [demo|reflexivity]).
  - cbn. unfold shift_from. split; [|split; [|split; [|exact I]]]; try exact I.
    + intros _ _ q (j & J1 & J2 & J3 & _). change (53 / 8) with 6 in J3.
      change (103 / 8) with 12 in *. change ((12 * 8 - 5) / 8) with 11 in J3. cbn [lanes] in J2. lia.
    + intros _ q (j & J1 & J2 & J3 & _). change (53 / 8) with 6 in J3.
      change (110 / 8) with 13 in *. cbn [lanes] in J2. lia.
  - eexists. vm_compute. reflexivity.
Qed.

(** And exactly those: where no words are mapped in front of the arrays, a program is
    undefined, by a pointer formed outside of every array, if and only if one of its
    operations looks at a word in front of its array. *)
Theorem C74_programs_undefined : forall A t h w m lo arr n (c : prog A) e s,
  valid_w w -> w < 32 -> vector_fits h w -> (exists c, t = X86 c) \/ t = Neon true ->
  wf_mem w m -> laid_out w m lo arr -> alone w m lo arr -> (forall k, size arr k < 2 ^ 32) ->
  designates w lo arr e s -> sprun n c s arr <> NotAllowed ->
  (prun_hwy t Strict20 h w n c e m = UB OutOfBounds <-> ~ prog_inside h w lo n c s arr).
Proof. exact programs_language_exact. Qed.
Print Assumptions C74_programs_undefined.

(** The same array. A first shift from the middle of the array is defined, a second one from
    its beginning is not. *)
Example C74_programs_undefined_example :
  let l := [1; 2; 3; 5; 8; 13; 21; 34; 55; 89; 144; 233; 251] in
  let m := mem_of l in
  let arr := fun k => match k with
    | O => map (fun i => bit 8 m (3 + Z.of_nat i)) (seq 0 100)
    | _ => [] end in
  let e := Env (fun x => match x with O => It 6 5 | S O => It 12 7 | _ => It 0 3 end)
               (fun _ => Ref 0 1) (fun _ => ptr_null) in
  let s := SEnv (fun x => match x with
      | O => Some (0%nat, 50) | S O => Some (0%nat, 100) | S (S O) => Some (0%nat, 0) | _ => None end)
      (fun _ => None) (fun _ => None) in
  let prog := fun x => Then (PShiftRight 3 0 1 5 true) (fun _ =>
    Then (PShiftRight 4 x 1 13 false) (fun _ => Finish 0)) in
  valid_w 8 /\ 8 < 32 /\ vector_fits (Unit 8 32) 8 /\ wf_mem 8 m /\ laid_out 8 m (fun _ => 3) arr /\
  alone 8 m (fun _ => 3) arr /\ (forall k, size arr k < 2 ^ 32) /\ designates 8 (fun _ => 3) arr e s /\
  sprun 10 (prog 2%nat) s arr <> NotAllowed /\
  run 13 (prun_hwy (X86 (Cpu true true true)) Strict20 (Unit 8 32) 8 10 (prog 2%nat) e) l = UB OutOfBounds /\
  run 13 (prun_hwy (X86 (Cpu true true true)) Strict20 (Unit 8 32) 8 10 (prog 0%nat) e) l
    = Ok (0, map Some [1; 2; 3; 5; 8; 13; 21; 0; 124; 136; 220; 100; 193]).
Proof.
  cbv zeta. split; [demo|]. split; [lia|]. split; [unfold vector_fits; cbn; lia|]. split; [demo|].
  split; [|split; [|split; [|split; [|split; [|vm_compute; split; reflexivity]]]]].
  - split.
    + assert (Nx : forall m a n i, 0 <= i < Z.of_nat n ->
        bit 8 m (a + i) = nth (Z.to_nat i) (map (fun i => bit 8 m (a + Z.of_nat i)) (seq 0 n)) false).
      { intros m a n i Hi. rewrite (nth_indep _ false (bit 8 m (a + Z.of_nat 0)))
          by (rewrite map_length, seq_length; lia).
        rewrite (map_nth (fun i => bit 8 m (a + Z.of_nat i))), seq_nth by lia. f_equal. lia. }
      intros k. destruct k as [|k]; unfold size; rewrite ?map_length, ?seq_length; cbn [length];
        (split; [unfold max_bits; lia|]); (split; [demo|]); intros i Hi; [exact (Nx _ 3 100%nat i Hi)|lia].
    + intros k l i j N. destruct k as [|k], l as [|l]; unfold size; cbn [length map seq]; lia.
  - intros k a _ Ha. change (3 / 8) with 0 in Ha. unfold mem_of.
    destruct (Z.leb_spec 0 a) as [C|C]; [lia|reflexivity].
  - intros [|k]; unfold size; cbn [length map seq]; lia.
  - split; [|split; intros x k i E; discriminate E].
    intros x k i E. destruct x as [|[|[|x]]]; [injection E as <- <-..|discriminate E];
      (split; [reflexivity|]); (split; [demo|reflexivity]).
  - vm_compute. discriminate.
Qed.
