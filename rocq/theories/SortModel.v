(** Model of algorithm/sort/{sort,stable_sort,nth_element,search,next_permutation}.go over the
    random access iterators of IterModel.v, for an arbitrary container given by its Size, At and
    Set operations.  Iterators passed as arguments are from one container (as in C++), so an
    iterator is a container object and a position; local mutable iterators become loop variables.
    Go int positions are unbounded [Z]. *)
From Verif Require Import Base IterModel.
Open Scope Z_scope.
Open Scope go_scope.

Section sort.
  Context {W T : Type}.
  Context (csize : nat → M W Z) (cat : nat → Z → M W T) (cset : nat → Z → T → M W unit).
  Context (cmp : T → T → Z).
  Notation value := (it_value cat).
  Notation next := (it_next csize).

  (** sort.go:71-76 swapValue *)
  Definition swap_value (a b : iter) : M W unit :=
    let! va := value a in
    let! vb := value b in
    it_set cset a vb ;; it_set cset b va.
  (** [if cmp(a.Value(), b.Value()) > 0 { swapValue(a, b) }] (sort.go:20-22, 60-62, ...) *)
  Definition swap_if_gt (a b : iter) : M W unit :=
    let! va := value a in
    let! vb := value b in
    if 0 <? cmp va vb then swap_value a b else mret_ tt.
  (** sort.go:59-69 doPivot *)
  Definition do_pivot (first mid last : iter) : M W unit :=
    swap_if_gt first mid ;; swap_if_gt first last ;; swap_if_gt mid last.

  (** sort.go:36-51 (and nth_element.go:37-52): the partition loop; returns rightIter *)
  Fixpoint part_loop (fuel : nat) (lft rgt base : iter) : M W iter :=
    if it_position lft <=? it_position rgt then
      match fuel with
      | O => mfuel
      | S f =>
        let! lv := value lft in
        let! bv := value base in
        if cmp lv bv <=? 0 then
          let! lft' := next lft in part_loop f lft' rgt base
        else
          let! rv := value rgt in
          let! bv' := value base in
          if 0 <? cmp rv bv' then
            let! rgt' := it_prev rgt in part_loop f lft rgt' base
          else
            swap_value lft rgt ;;
            let! lft' := next lft in
            let! rgt' := it_prev rgt in
            part_loop f lft' rgt' base
      end
    else mret_ rgt.
  (** sort.go:33-54 (and nth_element.go:34-55): partition of [first,last] around the pivot at
      last-1; returns m *)
  Definition partition (first last : iter) : M W Z :=
    let base := it_at first (it_position last - 1) in
    let lft := it_at first (it_position first + 1) in
    let rgt := it_at first (it_position last - 2) in
    let! r := part_loop (Z.to_nat (it_position rgt - it_position lft + 1)) lft rgt base in
    let! r' := next r in
    swap_value base r' ;;
    mret_ (it_position r').

  (** sort.go:14-57 quickSort, on the closed range [first,last] *)
  Fixpoint quick_sort (fuel : nat) (first last : iter) : M W unit :=
    if it_position last <=? it_position first then mret_ tt
    else
      let len := it_position last - it_position first + 1 in
      if len <? 3 then swap_if_gt first last
      else
        let mid := it_at first (it_position first + Z.quot len 2) in
        do_pivot first mid last ;;
        swap_value mid (it_at first (it_position last - 1)) ;;
        if len =? 3 then mret_ tt
        else
          let! m := partition first last in
          match fuel with
          | O => mfuel
          | S f =>
            quick_sort f first (it_at first (m - 1)) ;;
            let! nx := next (it_at first m) in
            quick_sort f nx last
          end.
  (** sort.go:9-12 Sort; the recursion fuel is the length of the range *)
  Definition sort_range (first last : iter) : M W unit :=
    let n := it_position last - it_position first in
    quick_sort (Z.to_nat n) first (it_at first (it_position first + n - 1)).

  (** nth_element.go:17-63 nthElement, on the closed range [first,last] *)
  Fixpoint nth_element_ (fuel : nat) (first last : iter) (n : Z) : M W unit :=
    if it_position last <=? it_position first + 1 then mret_ tt
    else
      let len := it_position last - it_position first + 1 in
      if len <? 3 then swap_if_gt first last
      else
        let mid := it_at first (it_position first + Z.quot len 2) in
        do_pivot first mid last ;;
        swap_value mid (it_at first (it_position last - 1)) ;;
        if len =? 3 then mret_ tt
        else
          let! m := partition first last in
          match fuel with
          | O => mfuel
          | S f =>
            if n <=? m - it_position first then nth_element_ f first (it_at first m) n
            else let! nx := next (it_at first m) in
                 nth_element_ f nx last (n - (m - it_position first + 1))
          end.
  (** nth_element.go:9-15 NthElement *)
  Definition nth_element (first last : iter) (n : Z) : M W unit :=
    if (it_position first <? 0) || (it_position last - it_position first <? n) then mret_ tt
    else
      let len := it_position last - it_position first in
      nth_element_ (Z.to_nat len) first (it_at last (it_position first + len - 1)) n.

  (** stable_sort.go:30-40: first loop of merge; state is (firstIter, secondIter, pos, tempSlice) *)
  Fixpoint merge_loop (fuel : nat) (fi si mid end_ : iter) (pos : Z) (tmp : list T) : M W (iter * iter * Z * list T) :=
    if (it_position fi <? it_position mid) && (it_position si <? it_position end_) then
      match fuel with
      | O => mfuel
      | S f =>
        let! fv := value fi in
        let! sv := value si in
        if cmp fv sv <=? 0 then
          let! fv' := value fi in
          match upd tmp pos fv' with
          | Ok tmp' => let! fi' := next fi in merge_loop f fi' si mid end_ (pos + 1) tmp'
          | Panic => mpanic | Fuel => mfuel
          end
        else
          let! sv' := value si in
          match upd tmp pos sv' with
          | Ok tmp' => let! si' := next si in merge_loop f fi si' mid end_ (pos + 1) tmp'
          | Panic => mpanic | Fuel => mfuel
          end
      end
    else mret_ (fi, si, pos, tmp).
  (** stable_sort.go:41-44 and 45-48: the two copying loops *)
  Fixpoint copy_loop (fuel : nat) (it stop : iter) (pos : Z) (tmp : list T) : M W (Z * list T) :=
    if it_position it <? it_position stop then
      match fuel with
      | O => mfuel
      | S f =>
        let! v := value it in
        match upd tmp pos v with
        | Ok tmp' => let! it' := next it in copy_loop f it' stop (pos + 1) tmp'
        | Panic => mpanic | Fuel => mfuel
        end
      end
    else mret_ (pos, tmp).
  (** stable_sort.go:50-54: writing back; [c] counts the remaining iterations *)
  Fixpoint write_back (c : nat) (i : Z) (it : iter) (tmp : list T) : M W unit :=
    match c with
    | O => mret_ tt
    | S c =>
      match idx tmp i with
      | Ok v => it_set cset it v ;; let! it' := next it in write_back c (i + 1) it' tmp
      | Panic => mpanic | Fuel => mfuel
      end
    end.
  (** stable_sort.go:25-55 merge; tempSlice is updated in place, so it is returned *)
  Definition merge (first mid end_ : iter) (tmp : list T) : M W (list T) :=
    let fuel := Z.to_nat (it_position end_ - it_position first) in
    let! st := merge_loop fuel (it_clone first) (it_clone mid) mid end_ 0 tmp in
    let '(fi, si, pos, tmp1) := st in
    let! st2 := copy_loop fuel fi mid pos tmp1 in
    let '(pos2, tmp2) := st2 in
    let! st3 := copy_loop fuel si end_ pos2 tmp2 in
    let '(pos3, tmp3) := st3 in
    write_back (Z.to_nat pos3) 0 (it_clone first) tmp3 ;;
    mret_ tmp3.
  (** stable_sort.go:15-23 mergeSort *)
  Fixpoint merge_sort (fuel : nat) (first last : iter) (tmp : list T) : M W (list T) :=
    if it_position first + 1 =? it_position last then mret_ tmp
    else
      match fuel with
      | O => mfuel
      | S f =>
        let mid := it_at first (Z.shiftr (it_position first + it_position last) 1) in
        let! tmp1 := merge_sort f first mid tmp in
        let! tmp2 := merge_sort f mid last tmp1 in
        merge first mid last tmp2
      end.
  (** stable_sort.go:9-13 Stable: make panics on a negative length; [zero] is T's zero value *)
  Definition stable (fuel : nat) (zero : T) (first last : iter) : M W unit :=
    let n := it_position last - it_position first in
    if n <? 0 then mpanic
    else let! _ := merge_sort fuel first last (replicate (Z.to_nat n) zero) in mret_ tt.

  (** search.go:20-32: the loop of binarySearch *)
  Fixpoint bsearch_loop (fuel : nat) (lft rgt : iter) (val : T) : M W bool :=
    if it_position lft <=? it_position rgt then
      match fuel with
      | O => mfuel
      | S f =>
        let mid := it_at rgt (Z.shiftr (it_position lft + it_position rgt) 1) in
        let! v := value mid in
        let c := cmp val v in
        if c =? 0 then mret_ true
        else if c <? 0 then let! r := it_prev mid in bsearch_loop f lft r val
        else let! l := next mid in bsearch_loop f l rgt val
      end
    else mret_ false.
  (** search.go:9-33 BinarySearch *)
  Definition binary_search (first last : iter) (val : T) : M W bool :=
    let! v := it_valid csize first in
    if negb v || (it_position last <=? it_position first) then mret_ false
    else
      let! rgt := it_prev (it_clone last) in
      bsearch_loop (Z.to_nat (it_position last - it_position first)) (it_clone first) rgt val.

  (** search.go:50-60 (keep = cmp <= 0) and 80-90 (keep = cmp < 0): bound loop; [pos] is the Go
      variable pos *)
  Fixpoint bound_loop (keep : Z → bool) (fuel : nat) (lft rgt : iter) (val : T) (pos : Z) : M W Z :=
    if it_position lft <=? it_position rgt then
      match fuel with
      | O => mfuel
      | S f =>
        let mid := it_at lft (Z.shiftr (it_position lft + it_position rgt) 1) in
        let! v := value mid in
        if keep (cmp val v) then
          let! r := it_prev mid in bound_loop keep f lft r val (it_position mid)
        else let! l := next mid in bound_loop keep f l rgt val pos
      end
    else mret_ pos.
  (** search.go:36-62 LowerBound *)
  Definition lower_bound (first last : iter) (val : T) : M W iter :=
    let! v := it_valid csize first in
    if negb v || (it_position last <=? it_position first) then mret_ (it_clone last)
    else
      let! rgt := it_prev (it_clone last) in
      let! rv := value rgt in
      if 0 <? cmp val rv then mret_ (it_clone last)
      else let! pos := bound_loop (fun c => c <=? 0) (Z.to_nat (it_position last - it_position first))
                         (it_clone first) rgt val 0 in
           mret_ (it_at first pos).
  (** search.go:65-91 UpperBound *)
  Definition upper_bound (first last : iter) (val : T) : M W iter :=
    let! v := it_valid csize first in
    if negb v || (it_position last <=? it_position first) then mret_ (it_clone last)
    else
      let! rgt := it_prev (it_clone last) in
      let! rv := value rgt in
      if 0 <=? cmp val rv then mret_ (it_clone last)
      else let! pos := bound_loop (fun c => c <? 0) (Z.to_nat (it_position last - it_position first))
                         (it_clone first) rgt val 0 in
           mret_ (it_at first pos).

  (** next_permutation.go:16-19: the first loop, on (pre, cur) *)
  Fixpoint np_scan (fuel : nat) (first : iter) (pre cur : Z) : M W (Z * Z) :=
    if it_position first <? cur then
      let! a := value (it_at first pre) in
      let! b := value (it_at first cur) in
      if 0 <=? cmp a b then
        match fuel with
        | O => mfuel
        | S f => np_scan f first (pre - 1) (cur - 1)
        end
      else mret_ (pre, cur)
    else mret_ (pre, cur).
  (** next_permutation.go:23-25: the second loop, on cur *)
  Fixpoint np_find (fuel : nat) (first : iter) (pre cur : Z) : M W Z :=
    let! a := value (it_at first cur) in
    let! b := value (it_at first pre) in
    if cmp a b <=? 0 then
      match fuel with
      | O => mfuel
      | S f => np_find f first pre (cur - 1)
      end
    else mret_ cur.
  (** next_permutation.go:31-37 reverse, on the closed range [s,e] *)
  Fixpoint np_reverse (fuel : nat) (s e : iter) : M W unit :=
    if it_position s <? it_position e then
      match fuel with
      | O => mfuel
      | S f =>
        swap_value s e ;;
        let! s' := next s in
        let! e' := it_prev e in
        np_reverse f s' e'
      end
    else mret_ tt.
  (** next_permutation.go:9-29 NextPermutation *)
  Definition next_permutation (first last : iter) : M W bool :=
    let len := it_position last - it_position first in
    let endPos := it_position first + len - 1 in
    let endIter := it_at first endPos in
    let fuel := Z.to_nat len in
    let! pc := np_scan fuel first (endPos - 1) endPos in
    let '(pre, cur) := pc in
    if cur <=? it_position first then mret_ false
    else
      let! cur' := np_find fuel first pre endPos in
      swap_value (it_at first cur') (it_at first pre) ;;
      np_reverse fuel (it_at first (pre + 1)) endIter ;;
      mret_ true.
End sort.
