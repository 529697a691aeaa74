(** Model of ds/deque: deque.go, segment.go, pool.go, at pointer level.
    Segments live in a heap and are referred to by address; a segment slot holds an address or
    nil.  A deque owns its heap (no operation involves two deques).  Go ints are unbounded
    integers; every slice index is bounds-checked and [%] panics on zero, as in Go.  The slices
    d.segs (always made with len = cap), pool.segs and Segment.data are referenced from one place
    only and are modelled as lists.  String() is in TextModel.v. *)
From Verif Require Import Base.
Open Scope Z_scope.
Open Scope go_scope.

(** deque.go:9-11 SegmentCapacity *)
Definition SegmentCapacity : nat := 128.

(** Go's % on ints *)
Definition gomod {S} (a b : Z) : M S Z := if b =? 0 then mpanic else mret_ (Z.rem a b).
(** [for i := from; i < from + n; i++ { body(i) }] where the body does not change the bounds *)
Fixpoint for_up {S} (n : nat) (from : Z) (body : Z → M S unit) : M S unit :=
  match n with
  | O => mret_ tt
  | S n => body from ;; for_up n (from + 1) body
  end.
(** [for i := from; i > from - n; i-- { body(i) }] *)
Fixpoint for_down {S} (n : nat) (from : Z) (body : Z → M S unit) : M S unit :=
  match n with
  | O => mret_ tt
  | S n => body from ;; for_down n (from - 1) body
  end.

Section segment.
  Context {T : Type} (zero : T).
  (** segment.go:4-9 *)
  Record segment := MkSeg { sg_data : list T; sg_begin : Z; sg_end : Z; sg_size : Z }.
  Notation SM := (M segment).
  (** the segment itself *)
  Definition sget : SM segment := λ s, Ok (s, s).
  (** replacing the segment *)
  Definition sput (s : segment) : SM unit := λ _, Ok (tt, s).
  (** s.data[i] and s.data[i] = x *)
  Definition s_read (i : Z) : SM T := λ s, match idx (sg_data s) i with Ok x => Ok (x, s) | Panic => Panic | Fuel => Fuel end.
  (** s.data[i] = x *)
  Definition s_write (i : Z) (x : T) : SM unit := λ s,
    match upd (sg_data s) i x with
    | Ok l => Ok (tt, MkSeg l (sg_begin s) (sg_end s) (sg_size s))
    | Panic => Panic | Fuel => Fuel end.
  (** s.begin = b *)
  Definition set_begin (b : Z) : SM unit := λ s, Ok (tt, MkSeg (sg_data s) b (sg_end s) (sg_size s)).
  (** s.end = e *)
  Definition set_end (e : Z) : SM unit := λ s, Ok (tt, MkSeg (sg_data s) (sg_begin s) e (sg_size s)).
  (** s.size = n *)
  Definition set_size (n : Z) : SM unit := λ s, Ok (tt, MkSeg (sg_data s) (sg_begin s) (sg_end s) n).
  (** segment.go:11-15 newSegment(SegmentCapacity) *)
  Definition new_segment : segment := MkSeg (replicate SegmentCapacity zero) 0 0 0.
  (** segment.go:93-95 capacity *)
  Definition s_capacity : SM Z := let! s := sget in mret_ (Z.of_nat (length (sg_data s))).
  (** segment.go:105-107 nextIndex *)
  Definition s_next (i : Z) : SM Z := let! c := s_capacity in gomod (i + 1) c.
  (** segment.go:109-111 preIndex *)
  Definition s_pre (i : Z) : SM Z := let! c := s_capacity in gomod (i - 1 + c) c.
  (** segment.go:17-21 pushBack *)
  Definition s_push_back (x : T) : SM unit :=
    let! s := sget in s_write (sg_end s) x ;;
    let! e := s_next (sg_end s) in set_end e ;;
    set_size (sg_size s + 1).
  (** segment.go:23-27 pushFront *)
  Definition s_push_front (x : T) : SM unit :=
    let! s := sget in
    let! b := s_pre (sg_begin s) in set_begin b ;;
    s_write b x ;;
    set_size (sg_size s + 1).
  (** segment.go:32-36 the loop moving items backwards: returns the final idx *)
  Fixpoint s_shift_back (n : nat) (i : Z) : SM Z :=
    match n with
    | O => mret_ i
    | S n => let! j := s_next i in let! x := s_read j in s_write i x ;; s_shift_back n j
    end.
  (** segment.go:41-45 the loop moving items forwards *)
  Fixpoint s_shift_forth (n : nat) (i : Z) : SM Z :=
    match n with
    | O => mret_ i
    | S n => let! j := s_pre i in let! x := s_read j in s_write i x ;; s_shift_forth n j
    end.
  (** segment.go:29-50 insert *)
  Definition s_insert (position : Z) (x : T) : SM unit :=
    let! s := sget in
    (if position <? sg_size s - position then
       let! i := s_pre (sg_begin s) in
       let! k := s_shift_back (Z.to_nat position) i in
       s_write k x ;;
       let! b := s_pre (sg_begin s) in set_begin b
     else
       let! k := s_shift_forth (Z.to_nat (sg_size s - position)) (sg_end s) in
       s_write k x ;;
       let! e := s_next (sg_end s) in set_end e) ;;
    set_size (sg_size s + 1).
  (** segment.go:52-58 popBack *)
  Definition s_pop_back : SM T :=
    let! s := sget in
    let! e := s_pre (sg_end s) in set_end e ;;
    let! x := s_read e in
    set_size (sg_size s - 1) ;; mret_ x.
  (** segment.go:60-66 popFront *)
  Definition s_pop_front : SM T :=
    let! s := sget in
    let! x := s_read (sg_begin s) in
    let! b := s_next (sg_begin s) in set_begin b ;;
    set_size (sg_size s - 1) ;; mret_ x.
  (** segment.go:68-87 eraseAt *)
  Definition s_erase_at (position : Z) : SM unit :=
    let! s := sget in
    (if position <? sg_size s - position then
       for_down (Z.to_nat position) position (λ i,
         let! c := s_capacity in
         let! k := gomod (i + sg_begin s) c in
         let! p := gomod (i - 1 + sg_begin s) c in
         let! x := s_read p in s_write k x) ;;
       let! b := s_next (sg_begin s) in set_begin b
     else
       for_up (Z.to_nat (sg_size s - position)) position (λ i,
         let! c := s_capacity in
         let! k := gomod (i + sg_begin s) c in
         let! q := gomod (i + 1 + sg_begin s) c in
         let! x := s_read q in s_write k x) ;;
       let! e := s_pre (sg_end s) in set_end e) ;;
    set_size (sg_size s - 1).
  (** segment.go:89-91, :97-103 size, full, empty *)
  Definition s_size (s : segment) : Z := sg_size s.
  (** segment.go:97-99 full *)
  Definition s_full (s : segment) : bool := sg_size s =? Z.of_nat (length (sg_data s)).
  (** segment.go:101-103 empty *)
  Definition s_empty (s : segment) : bool := sg_size s =? 0.
  (** segment.go:113-119 at *)
  Definition s_at (position : Z) : SM T :=
    let! s := sget in
    if (position <? 0) || (sg_size s <=? position) then mpanic
    else let! c := s_capacity in let! i := gomod (position + sg_begin s) c in s_read i.
  (** segment.go:121-126 set: the bound is the capacity *)
  Definition s_set (position : Z) (x : T) : SM unit :=
    let! s := sget in
    if (position <? 0) || (Z.of_nat (length (sg_data s)) <=? position) then mret_ tt
    else let! c := s_capacity in let! i := gomod (position + sg_begin s) c in s_write i x.
  (** segment.go:128-134 back, front *)
  Definition s_back : SM T := let! s := sget in s_at (sg_size s - 1).
  (** segment.go:132-134 front *)
  Definition s_front : SM T := s_at 0.
  (** segment.go:136-145 clear; the loop over the items has an empty body and is left out *)
  Definition s_clear : SM unit := set_begin 0 ;; set_end 0 ;; set_size 0.
End segment.
Arguments segment T : clear implicits.

Section deque.
  Context {T : Type} (zero : T).
  (** deque.go:19-25 and pool.go:4-6; [dq_heap] is the memory of segments *)
  Record deque := MkDeque {
    dq_heap : list (segment T); dq_pool : list nat; dq_segs : list (option nat);
    dq_begin : Z; dq_end : Z; dq_size : Z }.
  Notation DM := (M deque).
  (** the deque itself *)
  Definition dget : DM deque := λ d, Ok (d, d).
  (** replacing the segments' contents *)
  Definition put_heap h : DM unit := λ d, Ok (tt, MkDeque h (dq_pool d) (dq_segs d) (dq_begin d) (dq_end d) (dq_size d)).
  (** d.pool = p *)
  Definition put_pool p : DM unit := λ d, Ok (tt, MkDeque (dq_heap d) p (dq_segs d) (dq_begin d) (dq_end d) (dq_size d)).
  (** d.segs = s *)
  Definition put_segs s : DM unit := λ d, Ok (tt, MkDeque (dq_heap d) (dq_pool d) s (dq_begin d) (dq_end d) (dq_size d)).
  (** d.begin = b *)
  Definition put_begin b : DM unit := λ d, Ok (tt, MkDeque (dq_heap d) (dq_pool d) (dq_segs d) b (dq_end d) (dq_size d)).
  (** d.end = e *)
  Definition put_end e : DM unit := λ d, Ok (tt, MkDeque (dq_heap d) (dq_pool d) (dq_segs d) (dq_begin d) e (dq_size d)).
  (** d.size = n *)
  Definition put_size n : DM unit := λ d, Ok (tt, MkDeque (dq_heap d) (dq_pool d) (dq_segs d) (dq_begin d) (dq_end d) n).
  (** method call on a segment pointer: nil panics *)
  Definition call {A} (p : option nat) (m : M (segment T) A) : DM A := λ d,
    match p with
    | None => Panic
    | Some a => match dq_heap d !! a with
                | None => Panic
                | Some s => match m s with
                            | Ok (r, s') => Ok (r, MkDeque (<[a := s']> (dq_heap d)) (dq_pool d) (dq_segs d) (dq_begin d) (dq_end d) (dq_size d))
                            | Panic => Panic
                            | Fuel => Fuel
                            end
                end
    end.
  (** call of a segment method that only reads a field *)
  Definition ask {A} (p : option nat) (f : segment T → A) : DM A := λ d,
    match p with
    | None => Panic
    | Some a => match dq_heap d !! a with None => Panic | Some s => Ok (f s, d) end
    end.
  (** d.segs[i] and d.segs[i] = p *)
  Definition seg_get (i : Z) : DM (option nat) := λ d,
    match idx (dq_segs d) i with Ok p => Ok (p, d) | Panic => Panic | Fuel => Fuel end.
  (** d.segs[i] = p *)
  Definition seg_put (i : Z) (p : option nat) : DM unit := λ d,
    match upd (dq_segs d) i p with
    | Ok s => put_segs s d
    | Panic => Panic | Fuel => Fuel end.

  (** deque.go:28-34 New *)
  Definition dq_new : deque := MkDeque [] [] [] 0 0 0.
  (** deque.go:37-44 Size, Empty *)
  Definition dq_Size : DM Z := let! d := dget in mret_ (dq_size d).
  (** deque.go:42-44 Empty *)
  Definition dq_Empty : DM bool := let! d := dget in mret_ (dq_size d =? 0).
  (** len(d.segs) *)
  Definition d_len : DM Z := let! d := dget in mret_ (Z.of_nat (length (dq_segs d))).
  (** deque.go:46-54 segUsed *)
  Definition seg_used : DM Z :=
    let! d := dget in
    mret_ (if dq_size d =? 0 then 0
           else if dq_begin d <? dq_end d then dq_end d - dq_begin d
           else Z.of_nat (length (dq_segs d)) - dq_begin d + dq_end d).
  (** deque.go:378-384 nextIndex, preIndex *)
  Definition d_next (i : Z) : DM Z := let! c := d_len in gomod (i + 1) c.
  (** deque.go:382-384 preIndex *)
  Definition d_pre (i : Z) : DM Z := let! c := d_len in gomod (i - 1 + c) c.
  (** pool.go:12-19 get *)
  Definition pool_get : DM (option nat) :=
    let! d := dget in
    match last (dq_pool d) with
    | None => put_heap (dq_heap d ++ [new_segment zero]) ;; mret_ (Some (length (dq_heap d)))
    | Some a => put_pool (take (length (dq_pool d) - 1) (dq_pool d)) ;; mret_ (Some a)
    end.
  (** pool.go:21-23 put (of a non-nil segment) *)
  Definition pool_put (p : option nat) : DM unit :=
    match p with None => mpanic | Some a => let! d := dget in put_pool (dq_pool d ++ [a]) end.
  (** pool.go:25-31 shrinkToSize *)
  Definition pool_shrink (n : Z) : DM unit :=
    let! d := dget in
    if n <? Z.of_nat (length (dq_pool d)) then put_pool (take (Z.to_nat n) (dq_pool d)) else mret_ tt.
  (** deque.go:280-287 putToPool *)
  Definition put_to_pool (p : option nat) : DM unit :=
    call p s_clear ;;
    pool_put p ;;
    let! d := dget in
    let! u := seg_used in
    if u <? Z.of_nat (length (dq_pool d)) * 6 / 5 then pool_shrink (u / 5) else mret_ tt.
  (** deque.go:321-333 firstSegment, lastSegment *)
  Definition first_segment : DM (option nat) :=
    let! n := d_len in if n =? 0 then mret_ None else let! d := dget in seg_get (dq_begin d).
  (** deque.go:328-333 lastSegment *)
  Definition last_segment : DM (option nat) :=
    let! n := d_len in if n =? 0 then mret_ None else let! d := dget in let! i := d_pre (dq_end d) in seg_get i.
  (** deque.go:335-337 segmentAt *)
  Definition segment_at (i : Z) : DM (option nat) :=
    let! d := dget in let! c := d_len in let! k := gomod (i + dq_begin d) c in seg_get k.
  (** deque.go:339-345 pos *)
  Definition d_pos (position : Z) : DM (Z * Z) :=
    let! f := first_segment in
    let! n := ask f s_size in
    if position <=? n - 1 then mret_ (0, position)
    else let p := position - n in mret_ (Z.quot p (Z.of_nat SegmentCapacity) + 1, Z.rem p (Z.of_nat SegmentCapacity)).
  (** the copying loop of expand and shrinkIfNeeded: seg[i] = d.segs[(d.begin+i) % m] for i < n,
      into a fresh slice of length c *)
  Fixpoint copy_segs (n : nat) (i : Z) (m : Z) (fresh : list (option nat)) : DM (list (option nat)) :=
    match n with
    | O => mret_ fresh
    | S n => let! d := dget in
             let! k := gomod (dq_begin d + i) m in
             let! p := seg_get k in
             match upd fresh i p with
             | Ok fresh' => copy_segs n (i + 1) m fresh'
             | Panic => mpanic
             | Fuel => mfuel
             end
    end.
  (** deque.go:347-361 expand *)
  Definition expand : DM unit :=
    let! u := seg_used in
    let c := if u * 2 =? 0 then 1 else u * 2 in
    let! fresh := copy_segs (Z.to_nat u) 0 u (replicate (Z.to_nat c) None) in
    put_begin 0 ;; put_end u ;; put_segs fresh.
  (** int(float64(u*2) * 1.2): equal to floor(2.4 u) for u < 2^48, see DequeFloat.v *)
  Definition shrink_bound (u : Z) : Z := 24 * u / 10.
  (** deque.go:364-376 shrinkIfNeeded *)
  Definition shrink_if_needed : DM unit :=
    let! u := seg_used in
    let! n := d_len in
    if shrink_bound u <? n then
      let! fresh := copy_segs (Z.to_nat u) 0 n (replicate (Z.to_nat (n / 2)) None) in
      put_begin 0 ;; put_end u ;; put_segs fresh
    else mret_ tt.
  (** [if d.segUsed() >= len(d.segs) { d.expand() }] *)
  Definition expand_if_full : DM unit :=
    let! u := seg_used in let! n := d_len in if n <=? u then expand else mret_ tt.
  (** deque.go:296-299 and :106-107: d.begin = d.preIndex(d.begin); d.segs[d.begin] = d.pool.get() *)
  Definition grow_front : DM (option nat) :=
    let! d := dget in
    let! b := d_pre (dq_begin d) in put_begin b ;;
    let! s := pool_get in
    seg_put b s ;; mret_ s.
  (** deque.go:312-315 and :137-138: d.segs[d.end] = d.pool.get(); d.end = d.nextIndex(d.end) *)
  Definition grow_back : DM (option nat) :=
    let! s := pool_get in
    let! d := dget in
    seg_put (dq_end d) s ;;
    let! e := d_next (dq_end d) in put_end e ;; mret_ s.
  (** deque.go:289-303 firstAvailableSegment *)
  Definition first_available : DM (option nat) :=
    let! f := first_segment in
    let! ok := (match f with None => mret_ false | Some _ => let! b := ask f s_full in mret_ (negb b) end) in
    if ok : bool then first_segment
    else
      expand_if_full ;;
      let! f := first_segment in
      let! need := (match f with None => mret_ true | Some _ => ask f s_full end) in
      if need : bool then grow_front else first_segment.
  (** deque.go:305-319 lastAvailableSegment *)
  Definition last_available : DM (option nat) :=
    let! f := last_segment in
    let! ok := (match f with None => mret_ false | Some _ => let! b := ask f s_full in mret_ (negb b) end) in
    if ok : bool then last_segment
    else
      expand_if_full ;;
      let! f := last_segment in
      let! need := (match f with None => mret_ true | Some _ => ask f s_full end) in
      if need : bool then grow_back else last_segment.
  (** d.size += k (deque.go: d.size++, d.size--) *)
  Definition size_add (k : Z) : DM unit := let! d := dget in put_size (dq_size d + k).
  (** deque.go:57-63 PushFront *)
  Definition dq_push_front (x : T) : DM unit :=
    let! s := first_available in call s (s_push_front x) ;; size_add 1 ;; expand_if_full.
  (** deque.go:66-72 PushBack *)
  Definition dq_push_back (x : T) : DM unit :=
    let! s := last_available in call s (s_push_back x) ;; size_add 1 ;; expand_if_full.
  (** loop bodies: cur := segmentAt(i); next := segmentAt(i+1); cur.pushBack(next.popFront()) *)
  Definition pull_front (i : Z) : DM unit :=
    let! cur := segment_at i in let! next := segment_at (i + 1) in
    let! x := call next s_pop_front in call cur (s_push_back x).
  (** cur := segmentAt(i); pre := segmentAt(i-1); cur.pushFront(pre.popBack()) *)
  Definition pull_back (i : Z) : DM unit :=
    let! cur := segment_at i in let! pre := segment_at (i - 1) in
    let! x := call pre s_pop_back in call cur (s_push_front x).
  (** deque.go:101-130 moveFrontInsert *)
  Definition move_front_insert (seg pos : Z) (x : T) : DM unit :=
    let! f := first_segment in
    let! full := ask f s_full in
    let! sp := (if full : bool then
        expand_if_full ;;
        grow_front ;;
        mret_ (if pos =? 0 then (seg, Z.of_nat SegmentCapacity - 1) else (seg + 1, pos - 1))
      else
        mret_ (if pos =? 0 then (seg - 1, Z.of_nat SegmentCapacity - 1)
               else if negb (seg =? 0) then (seg, pos - 1) else (seg, pos))) in
    for_up (Z.to_nat sp.1) 0 pull_front ;;
    let! s := segment_at sp.1 in call s (s_insert sp.2 x).
  (** deque.go:132-147 moveBackInsert *)
  Definition move_back_insert (seg pos : Z) (x : T) : DM unit :=
    let! f := last_segment in
    let! full := ask f s_full in
    (if full : bool then
        expand_if_full ;; grow_back ;; mret_ tt
      else mret_ tt) ;;
    let! u := seg_used in
    for_down (Z.to_nat (u - 1 - seg)) (u - 1) pull_back ;;
    let! s := segment_at seg in call s (s_insert pos x).
  (** deque.go:75-99 Insert *)
  Definition dq_insert (pos : Z) (x : T) : DM unit :=
    let! d := dget in
    if (pos <? 0) || (dq_size d <? pos) then mret_ tt
    else if pos =? 0 then dq_push_front x
    else if pos =? dq_size d then dq_push_back x
    else
      let! sp := d_pos pos in
      let! u := seg_used in
      (if sp.1 <? u - sp.1 then move_front_insert sp.1 sp.2 x else move_back_insert sp.1 sp.2 x) ;;
      size_add 1 ;; expand_if_full.
  (** deque.go:150-157 Front, Back *)
  Definition dq_front : DM T := let! f := first_segment in call f s_front.
  (** deque.go:155-157 Back *)
  Definition dq_back : DM T := let! f := last_segment in call f s_back.
  (** deque.go:160-166 At *)
  Definition dq_at (pos : Z) : DM T :=
    let! d := dget in
    if (pos <? 0) || (dq_size d <=? pos) then mpanic
    else let! sp := d_pos pos in let! s := segment_at sp.1 in call s (s_at sp.2).
  (** deque.go:169-176 Set; the result tells whether the returned error is nil *)
  Definition dq_set (pos : Z) (x : T) : DM bool :=
    let! d := dget in
    if (pos <? 0) || (dq_size d <=? pos) then mret_ false
    else let! sp := d_pos pos in let! s := segment_at sp.1 in call s (s_set sp.2 x) ;; mret_ true.
  (** deque.go:179-193 PopFront *)
  Definition dq_pop_front : DM T :=
    let! d := dget in
    if dq_size d =? 0 then mpanic
    else
      let! s := seg_get (dq_begin d) in
      let! v := call s s_pop_front in
      let! n := ask s s_size in
      (if n =? 0 then
         put_to_pool s ;; seg_put (dq_begin d) None ;;
         let! b := d_next (dq_begin d) in put_begin b
       else mret_ tt) ;;
      size_add (-1) ;; shrink_if_needed ;; mret_ v.
  (** deque.go:196-213 PopBack *)
  Definition dq_pop_back : DM T :=
    let! d := dget in
    if dq_size d =? 0 then mpanic
    else
      let! k := d_pre (dq_end d) in
      let! s := seg_get k in
      let! v := call s s_pop_back in
      let! n := ask s s_size in
      (if n =? 0 then put_to_pool s ;; seg_put k None ;; put_end k else mret_ tt) ;;
      size_add (-1) ;; shrink_if_needed ;; mret_ v.
  (** deque.go:216-249 EraseAt *)
  Definition dq_erase_at (pos : Z) : DM unit :=
    let! d := dget in
    if (pos <? 0) || (dq_size d <=? pos) then mret_ tt
    else
      let! sp := d_pos pos in
      let! s := segment_at sp.1 in
      call s (s_erase_at sp.2) ;;
      (if sp.1 <? dq_size d - sp.1 - 1 then
         for_down (Z.to_nat sp.1) sp.1 pull_back ;;
         let! f := first_segment in
         let! e := ask f s_empty in
         if e : bool then
           put_to_pool f ;; 
           let! d := dget in seg_put (dq_begin d) None ;;
           let! b := d_next (dq_begin d) in put_begin b ;;
           shrink_if_needed
         else mret_ tt
       else
         let! u := seg_used in
         for_up (Z.to_nat (u - 1 - sp.1)) sp.1 pull_front ;;
         let! f := last_segment in
         let! e := ask f s_empty in
         if e : bool then
           put_to_pool f ;; 
           let! d := dget in
           let! k := d_pre (dq_end d) in seg_put k None ;;
           let! k := d_pre (dq_end d) in put_end k ;;
           shrink_if_needed
         else mret_ tt) ;;
      size_add (-1).
  (** n pops *)
  Fixpoint pop_n (n : nat) (pop : DM T) : DM unit :=
    match n with O => mret_ tt | S n => pop ;; pop_n n pop end.
  (** deque.go:251-273 EraseRange *)
  Definition dq_erase_range (first last : Z) : DM unit :=
    let! d := dget in
    if (first <? 0) || (last <=? first) || (dq_size d <? last) then mret_ tt
    else
      let num := last - first in
      if dq_size d - first <? last then
        for_up (Z.to_nat (dq_size d - num - first)) first (λ pos, let! x := dq_at (pos + num) in dq_set pos x ;; mret_ tt) ;;
        pop_n (Z.to_nat num) dq_pop_back
      else
        for_down (Z.to_nat (last - num)) (last - 1) (λ pos, let! x := dq_at (pos - num) in dq_set pos x ;; mret_ tt) ;;
        pop_n (Z.to_nat num) dq_pop_front.
  (** deque.go:276-278 Clear *)
  Definition dq_clear : DM unit := let! d := dget in dq_erase_range 0 (dq_size d).
End deque.
Arguments deque T : clear implicits.

(** The public operations *)
Inductive dq_op (T : Type) :=
| DPushFront (x : T) | DPushBack (x : T) | DInsert (pos : Z) (x : T) | DSet (pos : Z) (x : T)
| DFront | DBack | DAt (pos : Z) | DPopFront | DPopBack | DEraseAt (pos : Z)
| DEraseRange (first last : Z) | DClear | DSize | DEmpty.
Arguments DPushFront {T}. Arguments DPushBack {T}. Arguments DInsert {T}. Arguments DSet {T}.
Arguments DFront {T}. Arguments DBack {T}. Arguments DAt {T}. Arguments DPopFront {T}. Arguments DPopBack {T}.
Arguments DEraseAt {T}. Arguments DEraseRange {T}. Arguments DClear {T}. Arguments DSize {T}. Arguments DEmpty {T}.
(** what the methods of deque.go return *)
Inductive dq_out (T : Type) := DUnit | DVal (x : T) | DBool (b : bool) | DInt (n : Z).
Arguments DUnit {T}. Arguments DVal {T}. Arguments DBool {T}. Arguments DInt {T}.
(** dispatch to the methods of deque.go *)
Definition dq_step {T} (zero : T) (o : dq_op T) : M (deque T) (dq_out T) :=
  match o with
  | DPushFront x => dq_push_front zero x ;; mret_ DUnit
  | DPushBack x => dq_push_back zero x ;; mret_ DUnit
  | DInsert pos x => dq_insert zero pos x ;; mret_ DUnit
  | DSet pos x => let! b := dq_set pos x in mret_ (DBool b)
  | DFront => let! x := dq_front in mret_ (DVal x)
  | DBack => let! x := dq_back in mret_ (DVal x)
  | DAt pos => let! x := dq_at pos in mret_ (DVal x)
  | DPopFront => let! x := dq_pop_front in mret_ (DVal x)
  | DPopBack => let! x := dq_pop_back in mret_ (DVal x)
  | DEraseAt pos => dq_erase_at pos ;; mret_ DUnit
  | DEraseRange f l => dq_erase_range f l ;; mret_ DUnit
  | DClear => dq_clear ;; mret_ DUnit
  | DSize => let! n := dq_Size in mret_ (DInt n)
  | DEmpty => let! b := dq_Empty in mret_ (DBool b)
  end.
