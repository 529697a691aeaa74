(** Sort, NthElement, Stable, NextPermutation and the heap with a comparison function that may panic
    (CrashModel.v): the code of SortModel.v and HeapModel.v with the calls of the comparison function
    spelt out.  A panic ends the algorithm and leaves the container as it is at that moment. *)
From Verif Require Import Base ListLib IterModel SortModel HeapModel CrashModel.
Open Scope Z_scope.
Open Scope go_scope.
Open Scope x_scope.

Section sort.
  Context {W T C : Type}.
  Context (csize : nat → M W Z) (cat : nat → Z → M W T) (cset : nat → Z → T → M W unit).
  Context (u : user_cmp T C).
  Notation XM := (X (W * C)).
  Notation value a := (xrun (it_value cat a)).
  Notation next a := (xrun (it_next csize a)).
  Notation prev a := (xrun (it_prev a)).
  Notation swap a b := (xrun (swap_value cat cset a b)).

  (** sort.go:20-22, 60-62, ... [if cmp(a.Value(), b.Value()) > 0 { swapValue(a, b) }] *)
  Definition x_swap_if_gt (a b : iter) : XM unit :=
    let? va := value a in
    let? vb := value b in
    let? c := xcmp u va vb in
    if 0 <? c then swap a b else xret tt.
  (** sort.go:59-69 doPivot *)
  Definition x_do_pivot (first mid last : iter) : XM unit :=
    x_swap_if_gt first mid ;? x_swap_if_gt first last ;? x_swap_if_gt mid last.
  (** sort.go:36-51 (and nth_element.go:37-52): the partition loop *)
  Fixpoint x_part_loop (fuel : nat) (lft rgt base : iter) : XM iter :=
    if it_position lft <=? it_position rgt then
      match fuel with
      | O => xfuel
      | S f =>
        let? lv := value lft in
        let? bv := value base in
        let? c := xcmp u lv bv in
        if c <=? 0 then
          let? lft' := next lft in x_part_loop f lft' rgt base
        else
          let? rv := value rgt in
          let? bv' := value base in
          let? c := xcmp u rv bv' in
          if 0 <? c then
            let? rgt' := prev rgt in x_part_loop f lft rgt' base
          else
            swap lft rgt ;?
            let? lft' := next lft in
            let? rgt' := prev rgt in
            x_part_loop f lft' rgt' base
      end
    else xret rgt.
  (** sort.go:33-54 (and nth_element.go:34-55) *)
  Definition x_partition (first last : iter) : XM Z :=
    let base := it_at first (it_position last - 1) in
    let lft := it_at first (it_position first + 1) in
    let rgt := it_at first (it_position last - 2) in
    let? r := x_part_loop (Z.to_nat (it_position rgt - it_position lft + 1)) lft rgt base in
    let? r' := next r in
    swap base r' ;?
    xret (it_position r').
  (** sort.go:14-57 quickSort *)
  Fixpoint x_quick_sort (fuel : nat) (first last : iter) : XM unit :=
    if it_position last <=? it_position first then xret tt
    else
      let len := it_position last - it_position first + 1 in
      if len <? 3 then x_swap_if_gt first last
      else
        let mid := it_at first (it_position first + Z.quot len 2) in
        x_do_pivot first mid last ;?
        swap mid (it_at first (it_position last - 1)) ;?
        if len =? 3 then xret tt
        else
          let? m := x_partition first last in
          match fuel with
          | O => xfuel
          | S f =>
            x_quick_sort f first (it_at first (m - 1)) ;?
            let? nx := next (it_at first m) in
            x_quick_sort f nx last
          end.
  (** sort.go:9-12 Sort *)
  Definition x_sort_range (first last : iter) : XM unit :=
    let n := it_position last - it_position first in
    x_quick_sort (Z.to_nat n) first (it_at first (it_position first + n - 1)).
  (** nth_element.go:17-63 nthElement *)
  Fixpoint x_nth_element_ (fuel : nat) (first last : iter) (n : Z) : XM unit :=
    if it_position last <=? it_position first + 1 then xret tt
    else
      let len := it_position last - it_position first + 1 in
      if len <? 3 then x_swap_if_gt first last
      else
        let mid := it_at first (it_position first + Z.quot len 2) in
        x_do_pivot first mid last ;?
        swap mid (it_at first (it_position last - 1)) ;?
        if len =? 3 then xret tt
        else
          let? m := x_partition first last in
          match fuel with
          | O => xfuel
          | S f =>
            if n <=? m - it_position first then x_nth_element_ f first (it_at first m) n
            else let? nx := next (it_at first m) in
                 x_nth_element_ f nx last (n - (m - it_position first + 1))
          end.
  (** nth_element.go:9-15 NthElement *)
  Definition x_nth_element (first last : iter) (n : Z) : XM unit :=
    if (it_position first <? 0) || (it_position last - it_position first <? n) then xret tt
    else
      let len := it_position last - it_position first in
      x_nth_element_ (Z.to_nat len) first (it_at last (it_position first + len - 1)) n.

  (** stable_sort.go:30-40: first loop of merge *)
  Fixpoint x_merge_loop (fuel : nat) (fi si mid end_ : iter) (pos : Z) (tmp : list T) : XM (iter * iter * Z * list T) :=
    if (it_position fi <? it_position mid) && (it_position si <? it_position end_) then
      match fuel with
      | O => xfuel
      | S f =>
        let? fv := value fi in
        let? sv := value si in
        let? c := xcmp u fv sv in
        if c <=? 0 then
          let? fv' := value fi in
          match upd tmp pos fv' with
          | Ok tmp' => let? fi' := next fi in x_merge_loop f fi' si mid end_ (pos + 1) tmp'
          | Panic => xrun mpanic | Fuel => xfuel
          end
        else
          let? sv' := value si in
          match upd tmp pos sv' with
          | Ok tmp' => let? si' := next si in x_merge_loop f fi si' mid end_ (pos + 1) tmp'
          | Panic => xrun mpanic | Fuel => xfuel
          end
      end
    else xret (fi, si, pos, tmp).
  (** stable_sort.go:25-55 merge *)
  Definition x_merge (first mid end_ : iter) (tmp : list T) : XM (list T) :=
    let fuel := Z.to_nat (it_position end_ - it_position first) in
    let? st := x_merge_loop fuel (it_clone first) (it_clone mid) mid end_ 0 tmp in
    xrun (let '(fi, si, pos, tmp1) := st in
          let! st2 := copy_loop csize cat fuel fi mid pos tmp1 in
          let '(pos2, tmp2) := st2 in
          let! st3 := copy_loop csize cat fuel si end_ pos2 tmp2 in
          let '(pos3, tmp3) := st3 in
          write_back csize cset (Z.to_nat pos3) 0 (it_clone first) tmp3 ;;
          mret_ tmp3).
  (** stable_sort.go:15-23 mergeSort *)
  Fixpoint x_merge_sort (fuel : nat) (first last : iter) (tmp : list T) : XM (list T) :=
    if it_position first + 1 =? it_position last then xret tmp
    else
      match fuel with
      | O => xfuel
      | S f =>
        let mid := it_at first (Z.shiftr (it_position first + it_position last) 1) in
        let? tmp1 := x_merge_sort f first mid tmp in
        let? tmp2 := x_merge_sort f mid last tmp1 in
        x_merge first mid last tmp2
      end.
  (** stable_sort.go:9-13 Stable *)
  Definition x_stable (fuel : nat) (zero : T) (first last : iter) : XM unit :=
    let n := it_position last - it_position first in
    if n <? 0 then xrun mpanic
    else let? _ := x_merge_sort fuel first last (replicate (Z.to_nat n) zero) in xret tt.

  (** next_permutation.go:16-19: the first loop *)
  Fixpoint x_np_scan (fuel : nat) (first : iter) (pre cur : Z) : XM (Z * Z) :=
    if it_position first <? cur then
      let? a := value (it_at first pre) in
      let? b := value (it_at first cur) in
      let? c := xcmp u a b in
      if 0 <=? c then
        match fuel with
        | O => xfuel
        | S f => x_np_scan f first (pre - 1) (cur - 1)
        end
      else xret (pre, cur)
    else xret (pre, cur).
  (** next_permutation.go:23-25: the second loop *)
  Fixpoint x_np_find (fuel : nat) (first : iter) (pre cur : Z) : XM Z :=
    let? a := value (it_at first cur) in
    let? b := value (it_at first pre) in
    let? c := xcmp u a b in
    if c <=? 0 then
      match fuel with
      | O => xfuel
      | S f => x_np_find f first pre (cur - 1)
      end
    else xret cur.
  (** next_permutation.go:9-29 NextPermutation *)
  Definition x_next_permutation (first last : iter) : XM bool :=
    let len := it_position last - it_position first in
    let endPos := it_position first + len - 1 in
    let endIter := it_at first endPos in
    let fuel := Z.to_nat len in
    let? pc := x_np_scan fuel first (endPos - 1) endPos in
    let '(pre, cur) := pc in
    if cur <=? it_position first then xret false
    else
      let? cur' := x_np_find fuel first pre endPos in
      xrun (swap_value cat cset (it_at first cur') (it_at first pre) ;;
            np_reverse csize cat cset fuel (it_at first (pre + 1)) endIter ;;
            mret_ true).
End sort.

Section heap.
  Context {T C : Type} (u : user_cmp T C).
  Notation XL := (X (list T * C)).
  (** an element of the slice *)
  Definition h_at (i : Z) : M (list T) T := fun l => match idx l i with Ok a => Ok (a, l) | Panic => Panic | Fuel => Fuel end.
  (** priority_queue.go:49-51 Less *)
  Definition x_less (i j : Z) : XL bool :=
    let? a := xrun (h_at i) in let? b := xrun (h_at j) in let? c := xcmp u a b in xret (c <? 0).
  (** heap.go:82-91 up *)
  Fixpoint x_up (fuel : nat) (j : Z) : XL unit :=
    let i := Z.quot (j - 1) 2 in
    if i =? j then xret tt
    else let? ls := x_less j i in
         if negb ls then xret tt
         else match fuel with
              | O => xfuel
              | S f => xrun (h_swap i j) ;? x_up f i
              end.
  (** heap.go:95-109 the loop of down *)
  Fixpoint x_down_loop (fuel : nat) (i n : Z) : XL Z :=
    let j1 := 2 * i + 1 in
    if (n <=? j1) || (j1 <? 0) then xret i
    else let j2 := j1 + 1 in
         let? b := (if j2 <? n then x_less j2 j1 else xret false) in
         let j := if (b : bool) then j2 else j1 in
         let? ls := x_less j i in
         if negb ls then xret i
         else match fuel with
              | O => xfuel
              | S f => xrun (h_swap i j) ;? x_down_loop f j n
              end.
  (** heap.go:93-111 down *)
  Definition x_down (fuel : nat) (i0 n : Z) : XL bool :=
    let? i := x_down_loop fuel i0 n in xret (i0 <? i).
  (** heap.go:37-39 the loop of Init *)
  Fixpoint x_init_loop (fuel c : nat) (n : Z) : XL unit :=
    match c with
    | O => xret tt
    | S c => let? _ := x_down fuel (Z.of_nat c) n in x_init_loop fuel c n
    end.
  (** heap.go:34-40 Init *)
  Definition x_init : XL unit := let? n := xrun h_len in x_init_loop (Z.to_nat n) (Z.to_nat n / 2) n.
  (** heap.go:44-47 Push *)
  Definition x_push (x : T) : XL unit :=
    xrun (h_push x) ;? let? n := xrun h_len in x_up (Z.to_nat n) (n - 1).
  (** heap.go:52-57 Pop *)
  Definition x_pop : XL T :=
    let? len := xrun h_len in
    let n := len - 1 in
    xrun (h_swap 0 n) ;?
    let? _ := x_down (Z.to_nat len) 0 n in
    xrun h_pop.
  (** heap.go:61-70 Remove *)
  Definition x_remove (i : Z) : XL T :=
    let? len := xrun h_len in
    let n := len - 1 in
    if negb (n =? i) then
      xrun (h_swap i n) ;?
      let? d := x_down (Z.to_nat len) i n in
      (if (d : bool) then xret tt else x_up (Z.to_nat len) i) ;?
      xrun h_pop
    else xrun h_pop.
  (** heap.go:76-80 Fix *)
  Definition x_fix (i : Z) : XL unit :=
    let? len := xrun h_len in
    let? d := x_down (Z.to_nat len) i len in
    if (d : bool) then xret tt else x_up (Z.to_nat len) i.
  (** priority_queue.go:98-144: the methods that compare; the others do not and are as before *)
  Definition x_pq_step (o : pq_op T) : XL (pq_out T) :=
    match o with
    | PPush x => x_push x ;? xret PUnit
    | PPop => let? x := x_pop in xret (PVal x)
    | o => xrun (pq_step (λ _ _, 0) o)
    end.
End heap.
