(** The operations of ds/rbtree with an explicit limit f on the rounds of each of their loops (and
    on the depth of their recursions): the same code as in RbModel.v, which allows one round more
    than nodes were ever allocated.  When the limit is hit the run ends in [Fuel].  Everything
    outside the loops is a fixed number of steps. *)
From Verif Require Import Base RbModel.
Open Scope Z_scope.
Open Scope go_scope.

Section cost.
  Context {K V : Type} (cmp : K → K → Z).
  Notation RM := (M (rb K V)).
  (** ds/rbtree/node.go:48-58 successor, its two loops limited *)
  Definition successor_within (f : nat) (x : ptr) : RM ptr :=
    let! r := right x in
    match r with Some _ => minimum_loop f r | None => let! y := parent x in succ_loop f x y end.
  (** ds/rbtree/node.go:61-75 presuccessor, its two loops limited *)
  Definition presuccessor_within (f : nat) (x : ptr) : RM ptr :=
    let! l := left x in
    match l with Some _ => maximum_loop f l | None =>
      let! p := parent x in
      match p with None => mret_ None | _ =>
        let! r := right p in
        if peq r x then parent x else pred_loop f x end end.
  (** ds/rbtree/rbtree.go:59-64 First, :72-77 Last, limited *)
  Definition rb_First_within (f : nat) : RM ptr := let! r := get_root in match r with None => mret_ None | _ => minimum_loop f r end.
  (** ds/rbtree/rbtree.go:72-77 Last, limited *)
  Definition rb_Last_within (f : nat) : RM ptr := let! r := get_root in match r with None => mret_ None | _ => maximum_loop f r end.
  (** ds/rbtree/rbtree.go:128-166 rbInsertFixup, its loop limited *)
  Definition insert_fixup_within (f : nat) (z : ptr) : RM unit :=
    insert_fixup_loop f z ;; let! r := get_root in put r (with_color BLACK).
  (** ds/rbtree/rbtree.go:100-126 Insert, the descent and the rebalancing limited *)
  Definition rb_insert_node_within (f : nat) (k : K) (v : V) : RM ptr :=
    let! x := get_root in
    let! y := descend cmp f k x None in
    let! z := alloc (MkNode y None None RED k v) in
    let! n := get_size in
    set_size (n + 1) ;;
    match y with
    | None => put z (with_color BLACK) ;; set_root z ;; mret_ z
    | _ =>
      let! zk := key z in let! yk := key y in
      (if cmp zk yk <? 0 then put y (with_left z) else put y (with_right z)) ;;
      insert_fixup_within f z ;; mret_ z
    end.
  (** ds/rbtree/rbtree.go:100-126 Insert, limited *)
  Definition rb_Insert_within (f : nat) (k : K) (v : V) : RM unit := rb_insert_node_within f k v ;; mret_ tt.
  (** ds/rbtree/rbtree.go:211-226 rbDeleteFixup, its loop limited *)
  Definition delete_fixup_within (f : nat) (x par : ptr) : RM unit :=
    let! x := delete_fixup_loop f x par in
    match x with None => mret_ tt | _ => put x (with_color BLACK) end.
  (** ds/rbtree/rbtree.go:169-209 Delete, the search for the successor and the rebalancing limited *)
  Definition rb_Delete_within (f : nat) (z : ptr) : RM unit :=
    match z with None => mret_ tt | _ =>
      let! zl := left z in
      let! y := (match zl with
                 | None => mret_ z
                 | _ => let! zr := right z in match zr with None => mret_ z | _ => successor_within f z end
                 end) in
      let! yl := left y in
      let! x := (match yl with None => right y | _ => mret_ yl end) in
      let! xparent := parent y in
      (match x with None => mret_ tt | _ => put x (with_parent xparent) end) ;;
      let! yp := parent y in
      (match yp with
       | None => set_root x
       | _ => let! ypl := left yp in if peq y ypl then put yp (with_left x) else put yp (with_right x)
       end) ;;
      (if peq y z then mret_ tt
       else let! yk := key y in put z (with_key yk) ;; let! yv := value y in put z (with_val yv)) ;;
      let! yc := color y in
      (if yc then delete_fixup_within f x xparent else mret_ tt) ;;
      let! n := get_size in set_size (n - 1)
    end.
  (** ds/rbtree/rbtree.go:355-374 FindLowerBoundNode, the recursion limited *)
  Definition rb_FindLowerBoundNode_within (f : nat) (k : K) : RM ptr := let! r := get_root in find_lower cmp f r k.
  (** ds/rbtree/rbtree.go:377-396 FindUpperBoundNode, the recursion limited *)
  Definition rb_FindUpperBoundNode_within (f : nat) (k : K) : RM ptr := let! r := get_root in find_upper cmp f r k.
  (** ds/rbtree/rbtree.go:343-352 findFirstNode (= FindNode :44-46), limited *)
  Definition rb_FindNode_within (f : nat) (k : K) : RM ptr :=
    let! n := rb_FindLowerBoundNode_within f k in
    match n with None => mret_ None | _ =>
      let! nk := key n in if cmp nk k =? 0 then mret_ n else mret_ None end.
  (** ds/rbtree/rbtree.go:35-41 Find, limited *)
  Definition rb_Find_within (f : nat) (k : K) : RM (option V) :=
    let! n := rb_FindNode_within f k in
    match n with None => mret_ None | _ => let! v := value n in mret_ (Some v) end.
End cost.
