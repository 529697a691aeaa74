(** Model of ds/rbtree/rbtree.go, node.go, iterator.go at the level of pointers.
    A tree owns a heap of nodes; a *Node is [option nat], nil being [None].  Simplifications: one
    heap per tree (nodes never move between trees in this code); Go's garbage collection is not
    modelled, so a deleted node stays in the heap, unreachable from the root, as it does in Go for
    anyone still holding a pointer to it.  Loops and recursions run on fuel: the number of nodes
    ever allocated, plus one. *)
From Verif Require Import Base.
Open Scope Z_scope.
Open Scope go_scope.

(** node.go:7-10 *)
Definition RED : bool := false.
(** node.go:9 BLACK *)
Definition BLACK : bool := true.
(** a *Node: nil or an address *)
Definition ptr : Type := option nat.
(** Go's == on node pointers *)
Definition peq (p q : ptr) : bool := bool_decide (p = q).

(** node.go:13-20 Node *)
Record node (K V : Type) := MkNode { n_parent : ptr; n_left : ptr; n_right : ptr; n_color : bool; n_key : K; n_val : V }.
Arguments MkNode {K V}. Arguments n_parent {K V}. Arguments n_left {K V}. Arguments n_right {K V}. Arguments n_color {K V}. Arguments n_key {K V}. Arguments n_val {K V}.
(** rbtree.go:17-21 RbTree, with its heap and the number of nodes ever allocated *)
Record rb (K V : Type) := MkRb { rb_heap : gmap nat (node K V); rb_next : nat; rb_root : ptr; rb_size : Z }.
Arguments MkRb {K V}. Arguments rb_heap {K V}. Arguments rb_next {K V}. Arguments rb_root {K V}. Arguments rb_size {K V}.

Section rb.
  Context {K V : Type} (cmp : K → K → Z).
  Notation RM := (M (rb K V)).

  (** rbtree.go:24-26 New *)
  Definition rb_new : rb K V := MkRb ∅ 0 None 0.

  (** reading the fields of *p; nil dereference panics *)
  Definition get (p : ptr) : RM (node K V) := fun s =>
    match p with Some a => match rb_heap s !! a with Some n => Ok (n, s) | None => Panic end | None => Panic end.
  (** writing fields of *p *)
  Definition put (p : ptr) (f : node K V → node K V) : RM unit := fun s =>
    match p with
    | Some a => match rb_heap s !! a with
                | Some n => Ok (tt, MkRb (<[a := f n]> (rb_heap s)) (rb_next s) (rb_root s) (rb_size s))
                | None => Panic end
    | None => Panic end.
  (** n.parent = q *)
  Definition with_parent (q : ptr) (n : node K V) := MkNode q (n_left n) (n_right n) (n_color n) (n_key n) (n_val n).
  (** n.left = q *)
  Definition with_left (q : ptr) (n : node K V) := MkNode (n_parent n) q (n_right n) (n_color n) (n_key n) (n_val n).
  (** n.right = q *)
  Definition with_right (q : ptr) (n : node K V) := MkNode (n_parent n) (n_left n) q (n_color n) (n_key n) (n_val n).
  (** n.color = c *)
  Definition with_color (c : bool) (n : node K V) := MkNode (n_parent n) (n_left n) (n_right n) c (n_key n) (n_val n).
  (** n.key = k *)
  Definition with_key (k : K) (n : node K V) := MkNode (n_parent n) (n_left n) (n_right n) (n_color n) k (n_val n).
  (** n.value = v *)
  Definition with_val (v : V) (n : node K V) := MkNode (n_parent n) (n_left n) (n_right n) (n_color n) (n_key n) v.
  (** n.parent, panicking on nil *)
  Definition parent (p : ptr) : RM ptr := let! n := get p in mret_ (n_parent n).
  (** n.left, panicking on nil *)
  Definition left (p : ptr) : RM ptr := let! n := get p in mret_ (n_left n).
  (** n.right, panicking on nil *)
  Definition right (p : ptr) : RM ptr := let! n := get p in mret_ (n_right n).
  (** n.color, panicking on nil *)
  Definition color (p : ptr) : RM bool := let! n := get p in mret_ (n_color n).
  (** node.go:23-25 Key, :28-30 Value, :33-35 SetValue *)
  Definition key (p : ptr) : RM K := let! n := get p in mret_ (n_key n).
  (** node.go:28-30 Value *)
  Definition value (p : ptr) : RM V := let! n := get p in mret_ (n_val n).
  (** node.go:33-35 SetValue *)
  Definition set_value (p : ptr) (v : V) : RM unit := put p (with_val v).
  (** the tree's own fields, and an allocation *)
  Definition get_root : RM ptr := fun s => Ok (rb_root s, s).
  (** t.root = p *)
  Definition set_root (p : ptr) : RM unit := fun s => Ok (tt, MkRb (rb_heap s) (rb_next s) p (rb_size s)).
  (** t.size *)
  Definition get_size : RM Z := fun s => Ok (rb_size s, s).
  (** t.size = n *)
  Definition set_size (n : Z) : RM unit := fun s => Ok (tt, MkRb (rb_heap s) (rb_next s) (rb_root s) n).
  (** &Node{...} (rbtree.go:113): a fresh address *)
  Definition alloc (n : node K V) : RM ptr := fun s =>
    Ok (Some (rb_next s), MkRb (<[rb_next s := n]> (rb_heap s)) (S (rb_next s)) (rb_root s) (rb_size s)).
  (** a bound on every loop: one more than the number of nodes ever allocated (an artefact; theorems show it is never exhausted) *)
  Definition fuel : RM nat := fun s => Ok (S (rb_next s), s).
  (** rbtree.go:460-465 getColor *)
  Definition get_color (p : ptr) : RM bool := match p with None => mret_ BLACK | _ => color p end.

  (** node.go:78-83 minimum, :86-91 maximum *)
  Fixpoint minimum_loop (f : nat) (p : ptr) : RM ptr :=
    match f with O => mfuel | S f =>
      let! l := left p in match l with None => mret_ p | _ => minimum_loop f l end end.
  (** node.go:78-83 minimum *)
  Definition minimum (p : ptr) : RM ptr := let! f := fuel in minimum_loop f p.
  (** node.go: the loop of maximum *)
  Fixpoint maximum_loop (f : nat) (p : ptr) : RM ptr :=
    match f with O => mfuel | S f =>
      let! r := right p in match r with None => mret_ p | _ => maximum_loop f r end end.
  (** node.go:86-91 maximum *)
  Definition maximum (p : ptr) : RM ptr := let! f := fuel in maximum_loop f p.
  (** node.go:48-58 successor *)
  Fixpoint succ_loop (f : nat) (x y : ptr) : RM ptr :=
    match f with O => mfuel | S f =>
      match y with None => mret_ y | _ =>
        let! r := right y in
        if peq x r then let! p := parent y in succ_loop f y p else mret_ y end end.
  (** node.go:48-58 successor *)
  Definition successor (x : ptr) : RM ptr :=
    let! r := right x in
    match r with Some _ => minimum r | None => let! y := parent x in let! f := fuel in succ_loop f x y end.
  (** node.go:61-75 presuccessor *)
  Fixpoint pred_loop (f : nat) (x : ptr) : RM ptr :=
    match f with O => mfuel | S f =>
      let! p := parent x in
      match p with None => mret_ p | _ =>
        let! l := left p in
        if peq l x then pred_loop f p else parent x end end.
  (** node.go:61-75 presuccessor *)
  Definition presuccessor (x : ptr) : RM ptr :=
    let! l := left x in
    match l with Some _ => maximum l | None =>
      let! p := parent x in
      match p with None => mret_ None | _ =>
        let! r := right p in
        if peq r x then parent x else let! f := fuel in pred_loop f x end end.
  (** node.go:38-40 Next, :43-45 Prev *)
  Definition next (x : ptr) : RM ptr := successor x.
  (** node.go:43-45 Prev *)
  Definition prev (x : ptr) : RM ptr := presuccessor x.

  (** rbtree.go:29-32 Clear *)
  Definition rb_Clear : RM unit := set_root None ;; set_size 0.
  (** rbtree.go:59-64 First (= Begin :54-56), :72-77 Last (= RBegin :67-69) *)
  Definition rb_First : RM ptr := let! r := get_root in match r with None => mret_ None | _ => minimum r end.
  (** rbtree.go:72-77 Last *)
  Definition rb_Last : RM ptr := let! r := get_root in match r with None => mret_ None | _ => maximum r end.
  (** rbtree.go:90-92 Empty, :95-97 Size *)
  Definition rb_Empty : RM bool := let! n := get_size in mret_ (n =? 0).
  (** rbtree.go:95-97 Size *)
  Definition rb_Size : RM Z := get_size.

  (** rbtree.go:290-306 leftRotate *)
  Definition left_rotate (x : ptr) : RM unit :=
    let! y := right x in
    let! yl := left y in
    put x (with_right yl) ;;
    (match yl with None => mret_ tt | _ => put yl (with_parent x) end) ;;
    let! xp := parent x in
    put y (with_parent xp) ;;
    (match xp with
     | None => set_root y
     | _ => let! xpl := left xp in if peq x xpl then put xp (with_left y) else put xp (with_right y)
     end) ;;
    put y (with_left x) ;;
    put x (with_parent y).
  (** rbtree.go:308-324 rightRotate *)
  Definition right_rotate (x : ptr) : RM unit :=
    let! y := left x in
    let! yr := right y in
    put x (with_left yr) ;;
    (match yr with None => mret_ tt | _ => put yr (with_parent x) end) ;;
    let! xp := parent x in
    put y (with_parent xp) ;;
    (match xp with
     | None => set_root y
     | _ => let! xpr := right xp in if peq x xpr then put xp (with_right y) else put xp (with_left y)
     end) ;;
    put y (with_right x) ;;
    put x (with_parent y).

  (** rbtree.go:104-111, the descent of Insert: y is the parent of the new node *)
  Fixpoint descend (f : nat) (k : K) (x y : ptr) : RM ptr :=
    match f with O => mfuel | S f =>
      match x with None => mret_ y | _ =>
        let! xk := key x in
        if cmp k xk <? 0 then let! l := left x in descend f k l x
        else let! r := right x in descend f k r x end end.
  (** rbtree.go:128-166 rbInsertFixup, its loop *)
  Fixpoint insert_fixup_loop (f : nat) (z : ptr) : RM unit :=
    match f with O => mfuel | S f =>
      let! p := parent z in
      match p with None => mret_ tt | _ =>
        let! pc := color p in
        if pc then mret_ tt
        else
          let! g := parent p in
          let! gl := left g in
          if peq p gl then
            let! y := right g in
            let! yc := get_color y in
            if negb yc then
              put p (with_color BLACK) ;; put y (with_color BLACK) ;; put g (with_color RED) ;;
              insert_fixup_loop f g
            else
              let! pr := right p in
              let! z := (if peq z pr then left_rotate p ;; mret_ p else mret_ z) in
              let! p := parent z in
              put p (with_color BLACK) ;;
              let! g := parent p in
              put g (with_color RED) ;;
              right_rotate g ;;
              insert_fixup_loop f z
          else
            let! y := left g in
            let! yc := get_color y in
            if negb yc then
              put p (with_color BLACK) ;; put y (with_color BLACK) ;; put g (with_color RED) ;;
              insert_fixup_loop f g
            else
              let! pl := left p in
              let! z := (if peq z pl then right_rotate p ;; mret_ p else mret_ z) in
              let! p := parent z in
              put p (with_color BLACK) ;;
              let! g := parent p in
              put g (with_color RED) ;;
              left_rotate g ;;
              insert_fixup_loop f z
      end end.
  (** rbtree.go: rbInsertFixup with its final t.root.color = BLACK *)
  Definition insert_fixup (z : ptr) : RM unit :=
    let! f := fuel in insert_fixup_loop f z ;;
    let! r := get_root in put r (with_color BLACK).
  (** rbtree.go:100-126 Insert; the address of the new node is returned for the statements only *)
  Definition rb_insert_node (k : K) (v : V) : RM ptr :=
    let! x := get_root in
    let! f := fuel in
    let! y := descend f k x None in
    let! z := alloc (MkNode y None None RED k v) in
    let! n := get_size in
    set_size (n + 1) ;;
    match y with
    | None => put z (with_color BLACK) ;; set_root z ;; mret_ z
    | _ =>
      let! zk := key z in let! yk := key y in
      (if cmp zk yk <? 0 then put y (with_left z) else put y (with_right z)) ;;
      insert_fixup z ;; mret_ z
    end.
  (** rbtree.go:100-126 Insert *)
  Definition rb_Insert (k : K) (v : V) : RM unit := rb_insert_node k v ;; mret_ tt.

  (** rbtree.go:228-257 rbFixupLeft; the returned w is overwritten before use by the caller *)
  Definition fixup_left (par : ptr) : RM ptr :=
    let! w := right par in
    let! wc := color w in
    let! w := (if negb wc then
                 put w (with_color BLACK) ;; put par (with_color RED) ;; left_rotate par ;; right par
               else mret_ w) in
    let! wl := left w in let! wlc := get_color wl in
    let! wr := right w in let! wrc := get_color wr in
    if wlc && wrc then put w (with_color RED) ;; mret_ par
    else
      let! w := (if wrc then
                   (match wl with None => mret_ tt | _ => put wl (with_color BLACK) end) ;;
                   put w (with_color RED) ;; right_rotate w ;; right par
                 else mret_ w) in
      let! pc := color par in
      put w (with_color pc) ;; put par (with_color BLACK) ;;
      let! wr := right w in
      (match wr with None => mret_ tt | _ => put wr (with_color BLACK) end) ;;
      left_rotate par ;; get_root.
  (** rbtree.go:259-288 rbFixupRight *)
  Definition fixup_right (par : ptr) : RM ptr :=
    let! w := left par in
    let! wc := color w in
    let! w := (if negb wc then
                 put w (with_color BLACK) ;; put par (with_color RED) ;; right_rotate par ;; left par
               else mret_ w) in
    let! wl := left w in let! wlc := get_color wl in
    let! wr := right w in let! wrc := get_color wr in
    if wlc && wrc then put w (with_color RED) ;; mret_ par
    else
      let! w := (if wlc then
                   (match wr with None => mret_ tt | _ => put wr (with_color BLACK) end) ;;
                   put w (with_color RED) ;; left_rotate w ;; left par
                 else mret_ w) in
      let! pc := color par in
      put w (with_color pc) ;; put par (with_color BLACK) ;;
      let! wl := left w in
      (match wl with None => mret_ tt | _ => put wl (with_color BLACK) end) ;;
      right_rotate par ;; get_root.
  (** rbtree.go:211-226 rbDeleteFixup *)
  Fixpoint delete_fixup_loop (f : nat) (x par : ptr) : RM ptr :=
    match f with O => mfuel | S f =>
      let! r := get_root in
      if peq x r then mret_ x
      else
        let! xc := get_color x in
        if negb xc then mret_ x
        else
          let! par := (match x with None => mret_ par | _ => parent x end) in
          let! pl := left par in
          let! x := (if peq x pl then fixup_left par else fixup_right par) in
          delete_fixup_loop f x par
    end.
  (** rbtree.go: rbDeleteFixup with its final x.color = BLACK *)
  Definition delete_fixup (x par : ptr) : RM unit :=
    let! f := fuel in let! x := delete_fixup_loop f x par in
    match x with None => mret_ tt | _ => put x (with_color BLACK) end.
  (** rbtree.go:169-209 Delete *)
  Definition rb_Delete (z : ptr) : RM unit :=
    match z with None => mret_ tt | _ =>
      let! zl := left z in
      let! y := (match zl with
                 | None => mret_ z
                 | _ => let! zr := right z in match zr with None => mret_ z | _ => successor z end
                 end) in
      let! yl := left y in
      let! x := (match yl with None => right y | _ => mret_ yl end) in
      let! xparent := parent y in
      (match x with None => mret_ tt | _ => put x (with_parent xparent) end) ;;
      let! yp := parent y in
      (match yp with
       | None => set_root x
       | _ => let! ypl := left yp in if peq y ypl then put yp (with_left x) else put yp (with_right x)
       end) ;;
      (if peq y z then mret_ tt
       else let! yk := key y in put z (with_key yk) ;; let! yv := value y in put z (with_val yv)) ;;
      let! yc := color y in
      (if yc then delete_fixup x xparent else mret_ tt) ;;
      let! n := get_size in set_size (n - 1)
    end.

  (** rbtree.go:355-374 FindLowerBoundNode *)
  Fixpoint find_lower (f : nat) (x : ptr) (k : K) : RM ptr :=
    match f with O => mfuel | S f =>
      match x with None => mret_ None | _ =>
        let! xk := key x in
        if cmp k xk <=? 0 then
          let! l := left x in
          let! ret := find_lower f l k in
          match ret with None => mret_ x | _ =>
            let! rk := key ret in let! xk := key x in
            if cmp rk xk <=? 0 then mret_ ret else mret_ x end
        else let! r := right x in find_lower f r k end end.
  (** rbtree.go:355-357 FindLowerBoundNode *)
  Definition rb_FindLowerBoundNode (k : K) : RM ptr := let! f := fuel in let! r := get_root in find_lower f r k.
  (** rbtree.go:377-396 FindUpperBoundNode *)
  Fixpoint find_upper (f : nat) (x : ptr) (k : K) : RM ptr :=
    match f with O => mfuel | S f =>
      match x with None => mret_ None | _ =>
        let! xk := key x in
        if 0 <=? cmp k xk then let! r := right x in find_upper f r k
        else
          let! l := left x in
          let! ret := find_upper f l k in
          match ret with None => mret_ x | _ =>
            let! rk := key ret in let! xk := key x in
            if cmp rk xk <=? 0 then mret_ ret else mret_ x end end end.
  (** rbtree.go:377-379 FindUpperBoundNode *)
  Definition rb_FindUpperBoundNode (k : K) : RM ptr := let! f := fuel in let! r := get_root in find_upper f r k.
  (** rbtree.go:343-352 findFirstNode (= FindNode :44-46) *)
  Definition rb_FindNode (k : K) : RM ptr :=
    let! n := rb_FindLowerBoundNode k in
    match n with None => mret_ None | _ =>
      let! nk := key n in if cmp nk k =? 0 then mret_ n else mret_ None end.
  (** rbtree.go:35-41 Find; [None] models the returned ErrorNotFound *)
  Definition rb_Find (k : K) : RM (option V) :=
    let! n := rb_FindNode k in
    match n with None => mret_ None | _ => let! v := value n in mret_ (Some v) end.
  (** rbtree.go:327-340 findNode (unexported and unused) *)
  Fixpoint find_node_loop (f : nat) (x : ptr) (k : K) : RM ptr :=
    match f with O => mfuel | S f =>
      match x with None => mret_ None | _ =>
        let! xk := key x in
        if cmp k xk <? 0 then let! l := left x in find_node_loop f l k
        else if cmp k xk =? 0 then mret_ x
        else let! r := right x in find_node_loop f r k end end.
  (** rbtree.go:44-46 FindNode *)
  Definition rb_find_node (k : K) : RM ptr := let! r := get_root in let! f := fuel in find_node_loop f r k.

  (** rbtree.go:399-405 Traversal.  The visitor is any function with its own state W, returning
      whether to go on; it is assumed not to touch the tree. *)
  Fixpoint traversal_loop {W} (vis : K → V → W → bool * W) (f : nat) (x : ptr) (w : W) : RM W :=
    match f with O => mfuel | S f =>
      match x with None => mret_ w | _ =>
        let! k := key x in let! v := value x in
        let bw := vis k v w in
        if negb bw.1 then mret_ bw.2
        else let! y := next x in traversal_loop vis f y bw.2 end end.
  (** rbtree.go:399-405 Traversal *)
  Definition rb_Traversal {W} (vis : K → V → W → bool * W) (w : W) : RM W :=
    let! x := rb_First in let! f := fuel in traversal_loop vis f x w.

  (** rbtree.go:422-457 test *)
  Fixpoint test (f : nat) (p : ptr) : RM (Z * Z * bool) :=
    match f with O => mfuel | S f =>
      match p with None => mret_ (1, 0, true) | _ =>
        let! r := get_root in
        let! c := color p in
        if peq p r && negb c then mret_ (1, 2, false)
        else
          let! l := left p in let! tl := test f l in
          let '(lb, lprop, lok) := tl in
          if negb lok then mret_ (lb, lprop, lok)
          else
            let! r := right p in let! tr := test f r in
            let '(rbc, rprop, rok) := tr in
            if negb rok then mret_ (rbc, rprop, rok)
            else if negb (rbc =? lb) then mret_ (lb, 5, false)
            else
              if negb c then
                let! lc := get_color l in let! rc := get_color r in
                if negb lc || negb rc then mret_ (0, 4, false) else mret_ (lb, 0, true)
              else mret_ (lb + 1, 0, true)
      end end.
  (** rbtree.go:408-420 IsRbTree; the result tells whether the error is nil *)
  Definition rb_IsRbTree : RM bool :=
    let! f := fuel in let! r := get_root in let! t := test f r in mret_ t.2.

  (** iterator.go: an RbTreeIterator is a pointer to a node.
      :18-20 IsValid, :23-28 Next, :31-36 Prev, :39-41 Key, :44-46 Value, :49-52 SetValue, :60-69 Equal *)
  Definition it_IsValid (p : ptr) : bool := negb (peq p None).
  (** iterator.go:23-28 Next *)
  Definition it_Next (p : ptr) : RM ptr := if it_IsValid p then next p else mret_ p.
  (** iterator.go:31-36 Prev *)
  Definition it_Prev (p : ptr) : RM ptr := if it_IsValid p then prev p else mret_ p.
  (** iterator.go:39-41 Key *)
  Definition it_Key (p : ptr) : RM K := key p.
  (** iterator.go:44-46 Value *)
  Definition it_Value (p : ptr) : RM V := value p.
  (** iterator.go:49-52 SetValue *)
  Definition it_SetValue (p : ptr) (v : V) : RM unit := set_value p v.
  (** iterator.go:60-69 Equal *)
  Definition it_Equal (p q : ptr) : bool := peq q p.
End rb.
Arguments rb_new {K V}.
