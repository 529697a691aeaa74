(** The operations at the ends of a deque (ds/deque/deque.go, pool.go) with a counter of the work done: the
    same code as in DequeModel.v, each function that allocates or copies slices counts the slots.  One unit
    is counted for each call of a method, each slot of a freshly made slice and each slot copied or written by
    a loop.  Unlike in DequeModel.v the slice of the pool (pool.go:4-6) has a capacity: append
    (pool.go:22) reallocates when it is reached, to [newcap c] slots. *)
From Verif Require Import Base DequeModel.
Open Scope Z_scope.
Open Scope go_scope.

Section cost.
  Context {T : Type} (zero : T) (newcap : Z → Z).
  (** the deque (deque.go:19-25), cap(pool.segs), the work done so far *)
  Record cdeque := MkCD { cd_dq : deque T; cd_cap : Z; cd_cost : Z }.
  Notation CM := (M cdeque).
  (** n units of work *)
  Definition pay (n : Z) : CM unit := λ w, Ok (tt, MkCD (cd_dq w) (cd_cap w) (cd_cost w + n)).
  (** code that takes a fixed number of steps (no loop, no allocation) *)
  Definition free {A} (m : M (deque T) A) : CM A := λ w,
    match m (cd_dq w) with Ok (a, d) => Ok (a, MkCD d (cd_cap w) (cd_cost w)) | Panic => Panic | Fuel => Fuel end.
  (** cap(p.segs) and the new slice's capacity (pool.go:22, :28) *)
  Definition get_cap : CM Z := λ w, Ok (cd_cap w, w).
  (** pool.go:22, :29 *)
  Definition set_cap (c : Z) : CM unit := λ w, Ok (tt, MkCD (cd_dq w) c (cd_cost w)).
  (** pool.go:12-19 get: a new segment has SegmentCapacity slots (segment.go:11-15); re-slicing keeps the capacity *)
  Definition cd_pool_get : CM (option nat) :=
    let! d := free dget in
    match last (dq_pool d) with
    | None => pay (Z.of_nat SegmentCapacity) ;; free (pool_get zero)
    | Some _ => free (pool_get zero)
    end.
  (** pool.go:21-23 put: append *)
  Definition cd_pool_put (p : option nat) : CM unit :=
    let! d := free dget in
    let! c := get_cap in
    let n := Z.of_nat (length (dq_pool d)) in
    (if c <=? n then pay (newcap c + n) ;; set_cap (newcap c) else mret_ tt) ;;
    pay 1 ;; free (pool_put p).
  (** pool.go:25-31 shrinkToSize: make and copy *)
  Definition cd_pool_shrink (n : Z) : CM unit :=
    let! d := free dget in
    (if n <? Z.of_nat (length (dq_pool d)) then pay (n + n) ;; set_cap n else mret_ tt) ;;
    free (pool_shrink n).
  (** deque.go:280-287 putToPool; clear (segment.go:136-145) has no loop on an empty segment *)
  Definition cd_put_to_pool (p : option nat) : CM unit :=
    free (call p s_clear) ;;
    cd_pool_put p ;;
    let! d := free dget in
    let! u := free seg_used in
    if u <? Z.of_nat (length (dq_pool d)) * 6 / 5 then cd_pool_shrink (u / 5) else mret_ tt.
  (** deque.go:353-355, :368-370: the copying loop *)
  Fixpoint cd_copy_segs (n : nat) (i : Z) (m : Z) (fresh : list (option nat)) : CM (list (option nat)) :=
    match n with
    | O => mret_ fresh
    | S n => pay 1 ;;
             let! d := free dget in
             let! k := free (gomod (dq_begin d + i) m) in
             let! p := free (seg_get k) in
             match upd fresh i p with
             | Ok fresh' => cd_copy_segs n (i + 1) m fresh'
             | Panic => mpanic
             | Fuel => mfuel
             end
    end.
  (** deque.go:347-361 expand *)
  Definition cd_expand : CM unit :=
    let! u := free seg_used in
    let c := if u * 2 =? 0 then 1 else u * 2 in
    pay c ;;
    let! fresh := cd_copy_segs (Z.to_nat u) 0 u (replicate (Z.to_nat c) None) in
    free (put_begin 0) ;; free (put_end u) ;; free (put_segs fresh).
  (** deque.go:364-376 shrinkIfNeeded *)
  Definition cd_shrink_if_needed : CM unit :=
    let! u := free seg_used in
    let! n := free d_len in
    if shrink_bound u <? n then
      pay (n / 2) ;;
      let! fresh := cd_copy_segs (Z.to_nat u) 0 n (replicate (Z.to_nat (n / 2)) None) in
      free (put_begin 0) ;; free (put_end u) ;; free (put_segs fresh)
    else mret_ tt.
  (** [if d.segUsed() >= len(d.segs) { d.expand() }] (deque.go:60-62) *)
  Definition cd_expand_if_full : CM unit :=
    let! u := free seg_used in let! n := free d_len in if n <=? u then cd_expand else mret_ tt.
  (** deque.go:297-299 *)
  Definition cd_grow_front : CM (option nat) :=
    let! d := free dget in
    let! b := free (d_pre (dq_begin d)) in free (put_begin b) ;;
    let! s := cd_pool_get in
    free (seg_put b s) ;; mret_ s.
  (** deque.go:313-315 *)
  Definition cd_grow_back : CM (option nat) :=
    let! s := cd_pool_get in
    let! d := free dget in
    free (seg_put (dq_end d) s) ;;
    let! e := free (d_next (dq_end d)) in free (put_end e) ;; mret_ s.
  (** deque.go:289-303 firstAvailableSegment *)
  Definition cd_first_available : CM (option nat) :=
    let! f := free first_segment in
    let! ok := free (match f with None => mret_ false | Some _ => let! b := ask f s_full in mret_ (negb b) end) in
    if ok : bool then free first_segment
    else
      cd_expand_if_full ;;
      let! f := free first_segment in
      let! need := free (match f with None => mret_ true | Some _ => ask f s_full end) in
      if need : bool then cd_grow_front else free first_segment.
  (** deque.go:305-319 lastAvailableSegment *)
  Definition cd_last_available : CM (option nat) :=
    let! f := free last_segment in
    let! ok := free (match f with None => mret_ false | Some _ => let! b := ask f s_full in mret_ (negb b) end) in
    if ok : bool then free last_segment
    else
      cd_expand_if_full ;;
      let! f := free last_segment in
      let! need := free (match f with None => mret_ true | Some _ => ask f s_full end) in
      if need : bool then cd_grow_back else free last_segment.
  (** deque.go:57-63 PushFront *)
  Definition cd_push_front (x : T) : CM unit :=
    let! s := cd_first_available in free (call s (s_push_front x)) ;; free (size_add 1) ;; cd_expand_if_full.
  (** deque.go:66-72 PushBack *)
  Definition cd_push_back (x : T) : CM unit :=
    let! s := cd_last_available in free (call s (s_push_back x)) ;; free (size_add 1) ;; cd_expand_if_full.
  (** deque.go:179-193 PopFront *)
  Definition cd_pop_front : CM T :=
    let! d := free dget in
    if dq_size d =? 0 then mpanic
    else
      let! s := free (seg_get (dq_begin d)) in
      let! v := free (call s s_pop_front) in
      let! n := free (ask s s_size) in
      (if n =? 0 then
         cd_put_to_pool s ;; free (seg_put (dq_begin d) None) ;;
         let! b := free (d_next (dq_begin d)) in free (put_begin b)
       else mret_ tt) ;;
      free (size_add (-1)) ;; cd_shrink_if_needed ;; mret_ v.
  (** deque.go:196-213 PopBack *)
  Definition cd_pop_back : CM T :=
    let! d := free dget in
    if dq_size d =? 0 then mpanic
    else
      let! k := free (d_pre (dq_end d)) in
      let! s := free (seg_get k) in
      let! v := free (call s s_pop_back) in
      let! n := free (ask s s_size) in
      (if n =? 0 then cd_put_to_pool s ;; free (seg_put k None) ;; free (put_end k) else mret_ tt) ;;
      free (size_add (-1)) ;; cd_shrink_if_needed ;; mret_ v.
  (** the calls that end at once, push or pop; [None]: the others (Insert, EraseAt, EraseRange, Clear) *)
  Definition cd_call (o : dq_op T) : option (CM (dq_out T)) :=
    match o with
    | DPushFront x => Some (cd_push_front x ;; mret_ DUnit)
    | DPushBack x => Some (cd_push_back x ;; mret_ DUnit)
    | DPopFront => Some (let! x := cd_pop_front in mret_ (DVal x))
    | DPopBack => Some (let! x := cd_pop_back in mret_ (DVal x))
    | DSet _ _ | DFront | DBack | DAt _ | DSize | DEmpty => Some (free (dq_step zero o))
    | DInsert _ _ | DEraseAt _ | DEraseRange _ _ | DClear => None
    end.
  (** one call *)
  Definition cd_step (o : dq_op T) : CM (dq_out T) :=
    pay 1 ;; match cd_call o with Some m => m | None => mpanic end.
  (** deque.go:28-34 New; a pool without storage *)
  Definition cd_new : cdeque := MkCD dq_new 0 0.
End cost.
Arguments cdeque : clear implicits.
