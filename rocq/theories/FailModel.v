(** bit_vector when an allocation fails
    (/repo/include/bitlib/bit-containers/bit_vector.hpp; line numbers refer to that
    file). The member functions are modelled statement by statement on the members
    word_vector and length_ (lines 39-40), so that an exception leaves behind what
    the statements before it have done. What the algorithms do to the words is taken
    from VecModel, what std::vector does to its buffer from CapModel. *)
From Coq Require Import ZArith Bool List.
From Verif Require Import Base WordOps IterModel RefModel PopcntModel AlgModel ShiftModel
  VecModel CapModel.
Import ListNotations.
Open Scope Z_scope.

(** The exceptions: std::bad_alloc and std::length_error when word_vector (line 39)
    gets no larger buffer, std::out_of_range from at (lines 370, 380). *)
Inductive failure : Type := BadAlloc | LengthError.
Inductive exn : Type := Refused (f : failure) | OutOfRange.

(** How a call ends (no /repo lines). *)
Inductive outcome (A : Type) : Type := Value (a : A) | Exception (e : exn).
Arguments Value {A}.
Arguments Exception {A}.

(** What the allocator of line 39 makes of a request for that many words: None if it
    is granted. *)
Definition allocator : Type := Z -> option failure.

(** The implementation of std::vector: its choices of room, and whether a copy
    assignment (line 132) that needs a larger buffer gives the old one away before it
    asks for the new one. The standard allows both ([container.reqmts] promises
    nothing for it); libstdc++ asks first, libc++ gives away first. *)
Record library : Type := Library { l_growth : growth; l_gives_away : bool }.

(** Statements of the member functions: they act on the object and may throw (no
    /repo lines). *)
Definition X (A : Type) : Type := cvec -> res (outcome A * cvec).
Definition xret {A} (a : A) : X A := fun c => Ok (Value a, c).
Definition xbind {A B} (s : X A) (k : A -> X B) : X B := fun c =>
  let? (o, c') := s c in
  match o with Value a => k a c' | Exception e => Ok (Exception e, c') end.
Definition xthrow {A} (e : exn) : X A := fun c => Ok (Exception e, c).
Definition xlift {A} (r : res A) : X A := fun c => let? a := r in Ok (Value a, c).
Notation "'letx' x := s 'in' k" := (xbind s (fun x => k))
  (at level 200, x pattern, s at level 100, k at level 200).
Notation "s ';x' k" := (xbind s (fun _ => k)) (at level 100, right associativity).

(** Reading the members and assigning length_, lines 39-40. *)
Definition words : X (list Z) := fun c => Ok (Value (vwords (fst c)), c).
Definition len : X Z := fun c => Ok (Value (vlen (fst c)), c).
Definition set_len (n : Z) : X unit := fun c => Ok (Value tt, (BV (vwords (fst c)) n, snd c)).

(** An algorithm on the words, as in VecModel.on_words (lines 516-517, 539-540, 570,
    586, 597), and with the memory of another vector (lines 562-563). *)
Definition alg_on {A} (a : M A) : X A := fun c =>
  let? (x, l) := on_words (vwords (fst c)) a in Ok (Value x, (BV l (vlen (fst c)), snd c)).
Definition alg_on_ext {A} (ext : mem) (a : M A) : X A := fun c =>
  let? (x, l, _) := on_words_ext (vwords (fst c)) ext a in
  Ok (Value x, (BV l (vlen (fst c)), snd c)).

(** word_vector.push_back(0U), lines 513, 595. A failing call has no effect
    ([vector.modifiers]). *)
Definition words_push (al : allocator) (g : growth) : X unit := fun c =>
  let '(v, b) := c in
  let n := wsize (vwords v) + 1 in
  if n <=? bcap b then Ok (Value tt, (BV (vwords v ++ [0]) (vlen v), b))
  else match al (g_push g (bcap b)) with
       | Some f => Ok (Exception (Refused f), c)
       | None => Ok (Value tt, (BV (vwords v ++ [0]) (vlen v),
                                Buf (g_push g (bcap b)) (bserial b + 1)))
       end.

(** Room for [n] words in word_vector, reserve(n) in line 483. A failing call has no
    effect ([vector.capacity]). *)
Definition words_reserve (al : allocator) (g : growth) (n : Z) : X unit := fun c =>
  let '(v, b) := c in
  if n <=? bcap b then Ok (Value tt, c)
  else match al (g_other g (wsize (vwords v)) (bcap b) n) with
       | Some f => Ok (Exception (Refused f), c)
       | None => Ok (Value tt, (v, Buf (g_other g (wsize (vwords v)) (bcap b) n) (bserial b + 1)))
       end.

(** word_vector.resize(n), lines 536, 559, 588, 613. A failing call has no effect
    ([vector.capacity]). *)
Definition words_resize (al : allocator) (g : growth) (n : Z) : X unit :=
  words_reserve al g n ;x
  fun c => Ok (Value tt, (BV (resize_words (vwords (fst c)) n) (vlen (fst c)), snd c)).

(** word_vector.pop_back() and clear(), lines 503, 573, 606: nothing is allocated. *)
Definition words_pop : X unit := fun c =>
  let? l := pop_word (vwords (fst c)) in Ok (Value tt, (BV l (vlen (fst c)), snd c)).
Definition words_clear : X unit := fun c => Ok (Value tt, (BV [] (vlen (fst c)), snd c)).

(** word_vector.shrink_to_fit(), line 494. A failing call has no effect. *)
Definition words_shrink (al : allocator) (g : growth) : X unit := fun c =>
  let '(v, b) := c in
  let n := wsize (vwords v) in
  if g_shrink g && (n <? bcap b) then
    match al n with
    | Some f => Ok (Exception (Refused f), c)
    | None => Ok (Value tt, (v, Buf n (bserial b + 1)))
    end
  else Ok (Value tt, c).

(** word_vector = other.word_vector in the defaulted copy assignment, line 132. *)
Definition words_assign (al : allocator) (li : library) (l : list Z) : X unit := fun c =>
  let '(v, b) := c in
  let n := wsize l in
  if n <=? bcap b then Ok (Value tt, (BV l (vlen v), b))
  else let r := g_other (l_growth li) (wsize (vwords v)) (bcap b) n in
       match al r with
       | Some f => if l_gives_away li
                   then Ok (Exception (Refused f), (BV [] (vlen v), Buf 0 (bserial b + 1)))
                   else Ok (Exception (Refused f), c)
       | None => Ok (Value tt, (BV l (vlen v), Buf r (bserial b + 1)))
       end.

(** word_vector = std::move(other.word_vector), line 347: the buffer changes hands,
    nothing is allocated. *)
Definition words_move (g : growth) (l : list Z) : X unit := fun c =>
  Ok (Value tt, (BV l (vlen (fst c)), Buf (g_other g 0 0 (wsize l)) (bserial (snd c) + 1))).

(** push_back, lines 592-600. *)
Definition xpush_back (al : allocator) (g : growth) (p : policy) (w : Z) (b : bool) : X unit :=
  letx l := words in
  letx n := len in
  (if wrap 64 (wsize l * w) =? n then words_push al g else xret tt) ;x
  alg_on (let! r := iindex p w vbegin (swrap64 n) in ref_assign_val w r b) ;x
  set_len (wrap 64 (n + 1)).

(** pop_back, lines 602-609. *)
Definition xpop_back (w : Z) : X unit :=
  letx n := len in
  set_len (wrap 64 (n - 1)) ;x
  letx n' := len in
  if n' mod w =? 0 then words_pop else xret tt.

(** insert(pos, value), lines 506-519. *)
Definition xinsert1 (al : allocator) (g : growth) (p : policy) (w : Z) (pos : iter) (b : bool)
  : X iter :=
  letx d := xlift (distance w vbegin pos) in
  letx l := words in
  letx n := len in
  (if wrap 64 (wsize l * w) =? n then words_push al g else xret tt) ;x
  set_len (wrap 64 (n + 1)) ;x
  letx n' := len in
  alg_on (let! f := iadd w vbegin d in
          let! e := iadd w vbegin (swrap64 n') in
          shift_right p w f e 1 ;;
          let! r := iindex p w vbegin d in
          ref_assign_val w r b) ;x
  xlift (iadd w vbegin d).

(** The storage for a bulk insertion that makes length_ [n], lines 532-537 and
    555-560; the computation is that of VecModel.grow. *)
Definition xgrow (al : allocator) (g : growth) (w n : Z) : X unit :=
  letx l := words in
  let avail := to_float (wrap 64 (wsize l * w)) in
  let total := to_float (wrap 64 n) in
  if avail <? total then
    let extra := to_float (total - avail) in
    if extra <? 2 ^ 32 then words_resize al g (wsize l + word_count w extra)
    else xlift (UB BadUse)
  else xret tt.

(** insert(pos, count, value), lines 521-542. *)
Definition xinsert_n (al : allocator) (g : growth) (p : policy) (w : Z) (pos : iter)
  (count : Z) (b : bool) : X iter :=
  letx d := xlift (distance w vbegin pos) in
  if count =? 0 then xlift (iadd w vbegin d)
  else
    letx n := len in
    xgrow al g w (n + count) ;x
    set_len (wrap 64 (n + count)) ;x
    letx n' := len in
    alg_on (let! f := iadd w vbegin d in
            let! e := iadd w vbegin (swrap64 n') in
            shift_right p w f e (swrap64 count) ;;
            let! h := iadd w f (swrap64 count) in
            fill p w f h b) ;x
    xlift (iadd w vbegin d).

(** insert(pos, first, last), lines 544-565, with first and last in [ext]. *)
Definition xinsert_range (al : allocator) (g : growth) (p : policy) (w : Z) (ext : mem)
  (pos first last : iter) : X iter :=
  letx d := xlift (distance w vbegin pos) in
  letx c := xlift (distance w first last) in
  let count := wrap 64 c in
  if count =? 0 then xlift (iadd w vbegin d)
  else
    letx n := len in
    xgrow al g w (n + count) ;x
    set_len (wrap 64 (n + count)) ;x
    letx n' := len in
    alg_on_ext ext
      (let! f := iadd w vbegin d in
       let! e := iadd w vbegin (swrap64 n') in
       shift_right p w f e (swrap64 count) ;;
       copy p w first last f) ;x
    xlift (iadd w vbegin d).

(** erase(pos), lines 567-576. *)
Definition xerase1 (p : policy) (w : Z) (pos : iter) : X iter :=
  letx n := len in
  alg_on (let! e := iadd w vbegin (swrap64 n) in shift_left p w pos e 1) ;x
  set_len (wrap 64 (n - 1)) ;x
  letx n' := len in
  (if n' mod w =? 0 then words_pop else xret tt) ;x
  xret pos.

(** erase(first, last), lines 578-590. *)
Definition xerase_range (al : allocator) (g : growth) (p : policy) (w : Z) (first last : iter)
  : X iter :=
  letx d := xlift (distance w vbegin first) in
  letx count := xlift (distance w first last) in
  if count =? 0 then xret last
  else
    letx n := len in
    alg_on (let! e := iadd w vbegin (swrap64 n) in shift_left p w first e count) ;x
    set_len (wrap 64 (n - count)) ;x
    letx n' := len in
    words_resize al g (word_count w n') ;x
    xlift (iadd w vbegin d).

(** resize(count), lines 611-616. *)
Definition xresize (al : allocator) (g : growth) (w count : Z) : X unit :=
  words_resize al g (word_count w count) ;x
  set_len count.

(** resize(count, value), lines 618-627, as VecModel.resize_val. *)
Definition xresize_val (al : allocator) (g : growth) (p : policy) (w count : Z) (b : bool)
  : X unit :=
  letx old := len in
  words_resize al g (word_count w count) ;x
  set_len count ;x
  letx n := len in
  if old <? n then
    alg_on (let! f := iadd w vbegin (swrap64 n) in
            let! e := iadd w vbegin (swrap64 n) in
            fill p w f e b)
  else xret tt.

(** clear, lines 501-504; reserve and shrink_to_fit, lines 481-484 and 492-495. *)
Definition xclear : X unit := words_clear ;x set_len 0.
Definition xreserve (al : allocator) (g : growth) (w n : Z) : X unit :=
  words_reserve al g (word_count w n).
Definition xshrink_to_fit (al : allocator) (g : growth) : X unit := words_shrink al g.

(** The defaulted copy assignment, line 132: the members in their order, lines 39-40. *)
Definition xassign (al : allocator) (li : library) (other : bvec) : X unit :=
  words_assign al li (vwords other) ;x
  set_len (vlen other).

(** Move assignment, lines 343-350. *)
Definition xmove_assign (g : growth) (other : bvec) : X unit :=
  set_len (vlen other) ;x
  words_move g (vwords other).

(** at, lines 364-382. *)
Definition xat (p : policy) (w pos : Z) : X bool :=
  letx n := len in
  if pos <? n then alg_on (let! r := iindex p w vbegin (swrap64 pos) in ref_get r)
  else xthrow OutOfRange.
Definition xat_set (p : policy) (w pos : Z) (b : bool) : X unit :=
  letx n := len in
  if pos <? n then alg_on (let! r := iindex p w vbegin (swrap64 pos) in ref_assign_val w r b)
  else xthrow OutOfRange.

(** What the client sees of a returned iterator (as VecModel.see_iter). *)
Definition xsee (w : Z) (s : X iter) : X vout :=
  letx it := s in letx i := xlift (idiff w it vbegin) in xret (OIdx i).
Definition xnone (s : X unit) : X vout := s ;x xret ONone.

(** One call; lines as in VecModel.vop. The calls that only read or assign one bit
    allocate nothing and are those of VecModel. *)
Definition xstep (al : allocator) (li : library) (p : policy) (w : Z) (o : vop) : X vout :=
  let g := l_growth li in
  match o with
  | OpPush b => xnone (xpush_back al g p w b)
  | OpPop => xnone (xpop_back w)
  | OpInsert i b => letx pos := xlift (iadd w vbegin i) in xsee w (xinsert1 al g p w pos b)
  | OpInsertN i n b => letx pos := xlift (iadd w vbegin i) in xsee w (xinsert_n al g p w pos n b)
  | OpInsertRange i src j k =>
    letx pos := xlift (iadd w vbegin i) in
    letx f := xlift (iadd w (ext_begin src) j) in
    letx l := xlift (iadd w (ext_begin src) k) in
    xsee w (xinsert_range al g p w (ext_mem src) pos f l)
  | OpErase i => letx pos := xlift (iadd w vbegin i) in xsee w (xerase1 p w pos)
  | OpEraseRange i j =>
    letx f := xlift (iadd w vbegin i) in
    letx l := xlift (iadd w vbegin j) in
    xsee w (xerase_range al g p w f l)
  | OpSetAt i b => xnone (xat_set p w i b)
  | OpAt i => letx b := xat p w i in xret (OBit b)
  | OpClear => xnone xclear
  | OpReserve n => xnone (xreserve al g w n)
  | OpShrinkToFit => xnone (xshrink_to_fit al g)
  | OpResize n => xnone (xresize al g w n)
  | OpAssign other => xnone (xassign al li other)
  | OpMoveAssign other => xnone (xmove_assign g other)
  | OpSet _ _ | OpGet _ | OpFront | OpBack | OpSize | OpEmpty =>
    fun c => let? (x, v) := vstep p w (fst c) o in Ok (Value x, (v, snd c))
  end.

(** A client that makes calls, catches the exceptions and goes on as it likes (no
    /repo lines). *)
Inductive careful : Type :=
| Stop
| Call (o : vop) (k : outcome vout -> careful).

(** Its execution: the calls it made and how they ended, and the vector. Every call
    has its own allocator (no /repo lines). *)
Fixpoint xrun (als : nat -> allocator) (li : library) (p : policy) (w : Z) (t : nat) (q : careful)
  (c : cvec) : res (list (vop * outcome vout) * cvec) :=
  match q with
  | Stop => Ok ([], c)
  | Call o k =>
    let? (x, c') := xstep (als t) li p w o c in
    let? (tr, c'') := xrun als li p w (S t) (k x) c' in
    Ok ((o, x) :: tr, c'')
  end.
