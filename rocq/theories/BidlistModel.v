(** Model of ds/list/bidlist: list.go and iterator.go, at pointer level.
    A world holds all nodes and all lists ever allocated; pointers are addresses or nil
    ([option nat]); following nil (or an address that was never allocated) panics.
    Lengths are unbounded integers.  String() is in TextModel.v. *)
From Verif Require Import Base.
Open Scope Z_scope.
Open Scope go_scope.

Section bidlist.
  Context {T : Type}.
  (** list.go:19-24 Node; [b_owner] is the field list *)
  Record bnode := MkBNode { b_prev : option nat; b_next : option nat; b_val : T; b_owner : option nat }.
  (** list.go:53-56 List *)
  Record blist := MkBList { b_head : option nat; b_len : Z }.
  (** all nodes and lists of the program (list.go:19-24, :53-56): addresses are positions *)
  Record bworld := MkBWorld { b_nodes : list bnode; b_lists : list blist }.
  Notation BM := (M bworld).

  (** *p for a node pointer *)
  Definition nd (p : option nat) : BM bnode := λ w,
    match p with
    | None => Panic
    | Some a => match b_nodes w !! a with Some n => Ok (n, w) | None => Panic end
    end.
  (** a write through a node pointer *)
  Definition nd_upd (p : option nat) (f : bnode → bnode) : BM unit := λ w,
    match p with
    | None => Panic
    | Some a => match b_nodes w !! a with
                | Some n => Ok (tt, MkBWorld (<[a := f n]> (b_nodes w)) (b_lists w))
                | None => Panic end
    end.
  (** n.prev = v (list.go, wherever such an assignment occurs) *)
  Definition set_prev (p v : option nat) : BM unit := nd_upd p (λ n, MkBNode v (b_next n) (b_val n) (b_owner n)).
  (** n.next = v *)
  Definition set_next (p v : option nat) : BM unit := nd_upd p (λ n, MkBNode (b_prev n) v (b_val n) (b_owner n)).
  (** n.list = v *)
  Definition set_owner (p v : option nat) : BM unit := nd_upd p (λ n, MkBNode (b_prev n) (b_next n) (b_val n) v).
  (** n.Value = x *)
  Definition set_val (p : option nat) (x : T) : BM unit := nd_upd p (λ n, MkBNode (b_prev n) (b_next n) x (b_owner n)).
  (** &Node{Value: v, list: l} *)
  Definition new_node (x : T) (l : nat) : BM (option nat) := λ w,
    Ok (Some (length (b_nodes w)), MkBWorld (b_nodes w ++ [MkBNode None None x (Some l)]) (b_lists w)).
  (** *l for a list pointer *)
  Definition ls (l : nat) : BM blist := λ w, match b_lists w !! l with Some x => Ok (x, w) | None => Panic end.
  (** a write through a list pointer *)
  Definition ls_upd (l : nat) (f : blist → blist) : BM unit := λ w,
    match b_lists w !! l with
    | Some x => Ok (tt, MkBWorld (b_nodes w) (<[l := f x]> (b_lists w)))
    | None => Panic end.
  (** l.head = p *)
  Definition set_head (l : nat) (p : option nat) : BM unit := ls_upd l (λ x, MkBList p (b_len x)).
  (** l.len += k (list.go: l.len++, l.len--) *)
  Definition len_add (l : nat) (k : Z) : BM unit := ls_upd l (λ x, MkBList (b_head x) (b_len x + k)).

  (** Go's == on node pointers *)
  Definition ptr_eqb (p q : option nat) : bool := bool_decide (p = q).

  (** list.go:27-35 Node.Next *)
  Definition b_Next (p : option nat) : BM (option nat) :=
    let! n := nd p in
    match b_owner n with
    | None => mret_ None
    | Some l => let! x := ls l in if ptr_eqb (b_next n) (b_head x) then mret_ None else mret_ (b_next n)
    end.
  (** list.go:38-46 Node.Prev *)
  Definition b_Prev (p : option nat) : BM (option nat) :=
    let! n := nd p in
    match b_owner n with
    | None => mret_ None
    | Some l => let! x := ls l in if ptr_eqb p (b_head x) then mret_ None else mret_ (b_prev n)
    end.
  (** list.go:59-62 New *)
  Definition b_New : BM nat := λ w, Ok (length (b_lists w), MkBWorld (b_nodes w) (b_lists w ++ [MkBList None 0])).
  (** list.go:65-77 Len, Size, Empty *)
  Definition b_Len (l : nat) : BM Z := let! x := ls l in mret_ (b_len x).
  (** list.go:75-77 Empty *)
  Definition b_Empty (l : nat) : BM bool := let! x := ls l in mret_ (b_len x =? 0).
  (** list.go:80-90 FrontNode, BackNode *)
  Definition b_FrontNode (l : nat) : BM (option nat) := let! x := ls l in mret_ (b_head x).
  (** list.go:85-90 BackNode *)
  Definition b_BackNode (l : nat) : BM (option nat) :=
    let! x := ls l in
    match b_head x with None => mret_ None | Some a => let! n := nd (Some a) in mret_ (b_prev n) end.
  (** list.go:93-106 Front, Back *)
  Definition b_Front (l : nat) : BM T :=
    let! x := ls l in if b_len x =? 0 then mpanic else let! n := nd (b_head x) in mret_ (b_val n).
  (** list.go:101-106 Back *)
  Definition b_Back (l : nat) : BM T :=
    let! x := ls l in if b_len x =? 0 then mpanic
    else let! n := nd (b_head x) in let! m := nd (b_prev n) in mret_ (b_val m).
  (** list.go:156-163 insertAfter *)
  Definition insert_after (l : nat) (n at_ : option nat) : BM (option nat) :=
    let! a := nd at_ in set_next n (b_next a) ;;
    set_prev n at_ ;;
    let! a := nd at_ in set_prev (b_next a) n ;;
    set_next at_ n ;;
    len_add l 1 ;;
    mret_ n.
  (** list.go:114-124 pushBack *)
  Definition push_back (l : nat) (x : T) : BM (option nat) :=
    let! n := new_node x l in
    let! b := ls l in
    if b_len b =? 0 then
      set_prev n n ;; set_next n n ;; set_head l n ;; len_add l 1 ;; mret_ n
    else
      let! h := nd (b_head b) in insert_after l n (b_prev h).
  (** list.go:109-111 PushBack *)
  Definition b_PushBack (l : nat) (x : T) : BM unit := push_back l x ;; mret_ tt.
  (** list.go:127-130 PushFront *)
  Definition b_PushFront (l : nat) (x : T) : BM unit := let! n := push_back l x in set_head l n.
  (** list.go:135-140 InsertAfter *)
  Definition b_InsertAfter (l : nat) (x : T) (mark : option nat) : BM (option nat) :=
    let! m := nd mark in
    if negb (ptr_eqb (b_owner m) (Some l)) then mret_ None
    else let! n := new_node x l in insert_after l n mark.
  (** list.go:145-154 InsertBefore *)
  Definition b_InsertBefore (l : nat) (x : T) (mark : option nat) : BM (option nat) :=
    let! m := nd mark in
    if negb (ptr_eqb (b_owner m) (Some l)) then mret_ None
    else
      let! n := new_node x l in
      let! n := insert_after l n (b_prev m) in
      let! b := ls l in
      (if ptr_eqb (b_head b) mark then set_head l n else mret_ tt) ;;
      mret_ n.
  (** list.go:175-189 remove *)
  Definition remove (l : nat) (n : option nat) : BM unit :=
    let! b := ls l in
    (if ptr_eqb n (b_head b) then let! h := nd (b_head b) in set_head l (b_next h) else mret_ tt) ;;
    let! x := nd n in set_next (b_prev x) (b_next x) ;;
    let! x := nd n in set_prev (b_next x) (b_prev x) ;;
    set_next n None ;;
    set_prev n None ;;
    set_owner n None ;;
    len_add l (-1) ;;
    let! b := ls l in
    if b_len b =? 0 then set_head l None else mret_ tt.
  (** list.go:168-173 Remove *)
  Definition b_Remove (l : nat) (n : option nat) : BM T :=
    let! x := nd n in
    (if ptr_eqb (b_owner x) (Some l) then remove l n else mret_ tt) ;;
    let! x := nd n in mret_ (b_val x).
  (** list.go:192-195 Clear *)
  Definition b_Clear (l : nat) : BM unit := ls_upd l (λ _, MkBList None 0).
  (** list.go:198-213 PopBack, PopFront *)
  Definition b_PopBack (l : nat) : BM T :=
    let! n := b_BackNode l in match n with Some _ => b_Remove l n | None => mpanic end.
  (** list.go:207-213 PopFront *)
  Definition b_PopFront (l : nat) : BM T :=
    let! n := b_FrontNode l in match n with Some _ => b_Remove l n | None => mpanic end.
  (** list.go:255-267 moveToAfter *)
  Definition move_to_after (l : nat) (n at_ : option nat) : BM unit :=
    let! a := nd at_ in
    if ptr_eqb n (b_next a) || ptr_eqb n at_ then mret_ tt
    else
      let! b := ls l in
      (if ptr_eqb n (b_head b) then let! x := nd n in set_head l (b_next x) else mret_ tt) ;;
      let! x := nd n in set_next (b_prev x) (b_next x) ;;
      let! x := nd n in set_prev (b_next x) (b_prev x) ;;
      let! a := nd at_ in set_next n (b_next a) ;;
      set_prev n at_ ;;
      let! a := nd at_ in set_prev (b_next a) n ;;
      set_next at_ n ;;
      mret_ tt.
  (** list.go:218-226 MoveToFront *)
  Definition b_MoveToFront (l : nat) (n : option nat) : BM unit :=
    let! x := nd n in
    if negb (ptr_eqb (b_owner x) (Some l)) then mret_ tt
    else
      let! b := ls l in
      if negb (ptr_eqb (b_head b) n) then
        let! h := nd (b_head b) in move_to_after l n (b_prev h) ;; set_head l n
      else mret_ tt.
  (** list.go:231-241 MoveToBack *)
  Definition b_MoveToBack (l : nat) (n : option nat) : BM unit :=
    let! x := nd n in
    if negb (ptr_eqb (b_owner x) (Some l)) then mret_ tt
    else
      let! b := ls l in
      let! h := nd (b_head b) in
      if negb (ptr_eqb (b_prev h) n) then
        (if ptr_eqb (b_head b) n then let! x := nd n in set_head l (b_next x) else mret_ tt) ;;
        let! b := ls l in
        let! h := nd (b_head b) in
        move_to_after l n (b_prev h)
      else mret_ tt.
  (** list.go:246-251 MoveAfter: operands of || are evaluated left to right *)
  Definition b_MoveAfter (l : nat) (n mark : option nat) : BM unit :=
    let! x := nd n in
    if negb (ptr_eqb (b_owner x) (Some l)) || ptr_eqb n mark then mret_ tt
    else let! m := nd mark in
         if negb (ptr_eqb (b_owner m) (Some l)) then mret_ tt
         else move_to_after l n mark.
  (** list.go:271-275 PushBackList; [i] iterations left *)
  Fixpoint push_back_loop (l : nat) (i : nat) (n : option nat) : BM unit :=
    match i with
    | O => mret_ tt
    | S i => let! x := nd n in
             let! b := ls l in
             let! h := nd (b_head b) in
             b_InsertAfter l (b_val x) (b_prev h) ;;
             let! n' := b_Next n in push_back_loop l i n'
    end.
  (** list.go:270-274 PushBackList *)
  Definition b_PushBackList (l other : nat) : BM unit :=
    let! i := b_Len other in let! n := b_FrontNode other in push_back_loop l (Z.to_nat i) n.
  (** list.go:279-283 PushFrontList *)
  Fixpoint push_front_loop (l : nat) (i : nat) (n : option nat) : BM unit :=
    match i with
    | O => mret_ tt
    | S i => let! x := nd n in
             let! b := ls l in
             b_InsertBefore l (b_val x) (b_head b) ;;
             let! n' := b_Prev n in push_front_loop l i n'
    end.
  (** list.go:278-282 PushFrontList *)
  Definition b_PushFrontList (l other : nat) : BM unit :=
    let! i := b_Len other in let! n := b_BackNode other in push_front_loop l (Z.to_nat i) n.
  (** list.go:299-305 Traversal: the values handed to the visitor, which answers [keep_going] *)
  Fixpoint traverse (keep_going : T → bool) (fuel : nat) (n : option nat) : BM (list T) :=
    match n with
    | None => mret_ []
    | Some _ =>
        match fuel with
        | O => mfuel
        | S fuel => let! x := nd n in
                    if keep_going (b_val x) then
                      let! n' := b_Next n in
                      let! xs := traverse keep_going fuel n' in mret_ (b_val x :: xs)
                    else mret_ [b_val x]
        end
    end.
  (** list.go:298-304 Traversal *)
  Definition b_Traversal (keep_going : T → bool) (fuel : nat) (l : nat) : BM (list T) :=
    let! n := b_FrontNode l in traverse keep_going fuel n.

  (** iterator.go:10-70 ListIterator: the node pointer; Next and Prev move it *)
  Definition bi_valid (i : option nat) : bool := bool_decide (i ≠ None).
  (** iterator.go:26-31 Next *)
  Definition bi_Next (i : option nat) : BM (option nat) := match i with None => mret_ None | Some _ => b_Next i end.
  (** iterator.go:34-39 Prev *)
  Definition bi_Prev (i : option nat) : BM (option nat) := match i with None => mret_ None | Some _ => b_Prev i end.
  (** iterator.go:42-47 Value *)
  Definition bi_Value (i : option nat) : BM T := match i with None => mpanic | Some _ => let! n := nd i in mret_ (b_val n) end.
  (** iterator.go:50-54 SetValue *)
  Definition bi_SetValue (i : option nat) (x : T) : BM unit := match i with None => mret_ tt | Some _ => set_val i x end.
  (** iterator.go:62-71 Equal *)
  Definition bi_Equal (i j : option nat) : bool := ptr_eqb j i.
  (** the client loops [for it := from; it.IsValid(); it.Next() / it.Prev() { use(it.Value()) }] *)
  Fixpoint bi_walk (move : option nat → BM (option nat)) (fuel : nat) (i : option nat) : BM (list T) :=
    if bi_valid i then
      match fuel with
      | O => mfuel
      | S f => let! x := bi_Value i in let! j := move i in let! xs := bi_walk move f j in mret_ (x :: xs)
      end
    else mret_ [].

  (** no list and no node allocated yet *)
  Definition bworld0 : bworld := MkBWorld [] [].
  (** operations of a history; node arguments are any pointers *)
  Inductive b_op :=
  | BNew | BPushBack (l : nat) (x : T) | BPushFront (l : nat) (x : T)
  | BInsertAfter (l : nat) (x : T) (m : option nat) | BInsertBefore (l : nat) (x : T) (m : option nat)
  | BRemove (l : nat) (n : option nat) | BClear (l : nat) | BPopBack (l : nat) | BPopFront (l : nat)
  | BMoveToFront (l : nat) (n : option nat) | BMoveToBack (l : nat) (n : option nat)
  | BMoveAfter (l : nat) (n m : option nat) | BPushBackList (l o : nat) | BPushFrontList (l o : nat)
  | BSetValue (n : option nat) (x : T)
  | BFront (l : nat) | BBack (l : nat) | BLen (l : nat) | BEmpty (l : nat)
  | BFrontNode (l : nat) | BBackNode (l : nat) | BNext (n : option nat) | BPrev (n : option nat) | BValue (n : option nat).
  (** what the methods of list.go return *)
  Inductive b_out := BUnit | BVal (x : T) | BPtr (p : option nat) | BInt (n : Z) | BBool (b : bool) | BList (l : nat).
  (** dispatch to the methods of list.go *)
  Definition b_step (o : b_op) : BM b_out :=
    match o with
    | BNew => let! l := b_New in mret_ (BList l)
    | BPushBack l x => b_PushBack l x ;; mret_ BUnit
    | BPushFront l x => b_PushFront l x ;; mret_ BUnit
    | BInsertAfter l x m => let! p := b_InsertAfter l x m in mret_ (BPtr p)
    | BInsertBefore l x m => let! p := b_InsertBefore l x m in mret_ (BPtr p)
    | BRemove l n => let! x := b_Remove l n in mret_ (BVal x)
    | BClear l => b_Clear l ;; mret_ BUnit
    | BPopBack l => let! x := b_PopBack l in mret_ (BVal x)
    | BPopFront l => let! x := b_PopFront l in mret_ (BVal x)
    | BMoveToFront l n => b_MoveToFront l n ;; mret_ BUnit
    | BMoveToBack l n => b_MoveToBack l n ;; mret_ BUnit
    | BMoveAfter l n m => b_MoveAfter l n m ;; mret_ BUnit
    | BPushBackList l o => b_PushBackList l o ;; mret_ BUnit
    | BPushFrontList l o => b_PushFrontList l o ;; mret_ BUnit
    | BSetValue n x => set_val n x ;; mret_ BUnit
    | BFront l => let! x := b_Front l in mret_ (BVal x)
    | BBack l => let! x := b_Back l in mret_ (BVal x)
    | BLen l => let! n := b_Len l in mret_ (BInt n)
    | BEmpty l => let! b := b_Empty l in mret_ (BBool b)
    | BFrontNode l => let! p := b_FrontNode l in mret_ (BPtr p)
    | BBackNode l => let! p := b_BackNode l in mret_ (BPtr p)
    | BNext n => let! p := b_Next n in mret_ (BPtr p)
    | BPrev n => let! p := b_Prev n in mret_ (BPtr p)
    | BValue n => let! x := nd n in mret_ (BVal (b_val x))
    end.
End bidlist.
Arguments bnode T : clear implicits. Arguments bworld T : clear implicits.
Arguments b_op T : clear implicits. Arguments b_out T : clear implicits.
