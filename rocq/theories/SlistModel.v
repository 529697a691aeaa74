(** Model of ds/list/simplelist/simplelist.go, at pointer level; nodes are addresses, nil is [None].
    Lengths are unbounded integers.  String() is in TextModel.v. *)
From Verif Require Import Base.
Open Scope Z_scope.
Open Scope go_scope.

Section slist.
  Context {T : Type} (zero : T).
  (** simplelist.go:9-12 Node *)
  Record snode := MkSNode { sn_next : option nat; sn_val : T }.
  (** simplelist.go:23-27 List *)
  Record slist := MkSList { sl_head : option nat; sl_tail : option nat; sl_len : Z }.
  (** all nodes and lists of the program: addresses are positions *)
  Record sworld := MkSWorld { sw_nodes : list snode; sw_lists : list slist }.
  Notation SM := (M sworld).
  (** *p *)
  Definition sn (p : option nat) : SM snode := λ w,
    match p with
    | None => Panic
    | Some a => match sw_nodes w !! a with Some n => Ok (n, w) | None => Panic end
    end.
  (** a write through a node pointer *)
  Definition sn_upd (p : option nat) (f : snode → snode) : SM unit := λ w,
    match p with
    | None => Panic
    | Some a => match sw_nodes w !! a with
                | Some n => Ok (tt, MkSWorld (<[a := f n]> (sw_nodes w)) (sw_lists w))
                | None => Panic end
    end.
  (** n.next = v *)
  Definition sset_next (p v : option nat) : SM unit := sn_upd p (λ n, MkSNode v (sn_val n)).
  (** n.Value = x *)
  Definition sset_val (p : option nat) (x : T) : SM unit := sn_upd p (λ n, MkSNode (sn_next n) x).
  (** &Node{Value: v} *)
  Definition snew (x : T) : SM (option nat) := λ w,
    Ok (Some (length (sw_nodes w)), MkSWorld (sw_nodes w ++ [MkSNode None x]) (sw_lists w)).
  (** *l for a list pointer *)
  Definition sl (l : nat) : SM slist := λ w, match sw_lists w !! l with Some x => Ok (x, w) | None => Panic end.
  (** a write through a list pointer *)
  Definition sl_upd (l : nat) (f : slist → slist) : SM unit := λ w,
    match sw_lists w !! l with
    | Some x => Ok (tt, MkSWorld (sw_nodes w) (<[l := f x]> (sw_lists w)))
    | None => Panic end.
  (** l.head = p *)
  Definition sset_head (l : nat) (p : option nat) : SM unit := sl_upd l (λ x, MkSList p (sl_tail x) (sl_len x)).
  (** l.tail = p *)
  Definition sset_tail (l : nat) (p : option nat) : SM unit := sl_upd l (λ x, MkSList (sl_head x) p (sl_len x)).
  (** l.len += k *)
  Definition slen_add (l : nat) (k : Z) : SM unit := sl_upd l (λ x, MkSList (sl_head x) (sl_tail x) (sl_len x + k)).
  (** Go's == on node pointers *)
  Definition speq (p q : option nat) : bool := bool_decide (p = q).

  (** simplelist.go:15-17 Node.Next *)
  Definition s_Next (p : option nat) : SM (option nat) := let! n := sn p in mret_ (sn_next n).
  (** simplelist.go:30-33 New *)
  Definition s_New : SM nat := λ w, Ok (length (sw_lists w), MkSWorld (sw_nodes w) (sw_lists w ++ [MkSList None None 0])).
  (** simplelist.go:36-48 Len, FrontNode, BackNode *)
  Definition s_Len (l : nat) : SM Z := let! x := sl l in mret_ (sl_len x).
  (** simplelist.go:41-43 FrontNode *)
  Definition s_FrontNode (l : nat) : SM (option nat) := let! x := sl l in mret_ (sl_head x).
  (** simplelist.go:46-48 BackNode *)
  Definition s_BackNode (l : nat) : SM (option nat) := let! x := sl l in mret_ (sl_tail x).
  (** simplelist.go:51-61 PushFront *)
  Definition s_PushFront (l : nat) (x : T) : SM unit :=
    let! n := snew x in
    let! b := sl l in
    (if sl_len b =? 0 then sset_head l n ;; sset_tail l n
     else let! b := sl l in sset_next n (sl_head b) ;; sset_head l n) ;;
    slen_add l 1.
  (** simplelist.go:64-74 PushBack *)
  Definition s_PushBack (l : nat) (x : T) : SM unit :=
    let! n := snew x in
    let! b := sl l in
    (if sl_len b =? 0 then sset_head l n ;; sset_tail l n
     else let! b := sl l in sset_next (sl_tail b) n ;; sset_tail l n) ;;
    slen_add l 1.
  (** simplelist.go:79-91 InsertAfter, insertAfter *)
  Definition s_InsertAfter (l : nat) (x : T) (at_ : option nat) : SM (option nat) :=
    let! n := snew x in
    let! a := sn at_ in
    sset_next n (sn_next a) ;;
    sset_next at_ n ;;
    let! y := sn n in
    (if speq (sn_next y) None then sset_tail l n else mret_ tt) ;;
    slen_add l 1 ;;
    mret_ n.
  (** simplelist.go:95-112 Remove *)
  Definition s_Remove (l : nat) (pre n : option nat) : SM T :=
    if speq n None then mret_ zero
    else
      (if speq pre None then
         let! x := sn n in
         sset_head l (sn_next x) ;;
         let! b := sl l in
         (if speq (sl_head b) None then sset_tail l None else mret_ tt)
       else
         let! x := sn n in
         sset_next pre (sn_next x) ;;
         let! y := sn pre in
         (if speq (sn_next y) None then sset_tail l pre else mret_ tt)) ;;
      slen_add l (-1) ;;
      let! x := sn n in mret_ (sn_val x).
  (** simplelist.go:116-126 MoveToFront: operands of || are evaluated left to right *)
  Definition s_MoveToFront (l : nat) (pre n : option nat) : SM unit :=
    if speq pre None then mret_ tt
    else
      let! y := sn pre in
      if negb (speq (sn_next y) n) || speq n None then mret_ tt
      else
        let! b := sl l in
        if sl_len b <=? 1 then mret_ tt
        else
          let! x := sn n in
          sset_next pre (sn_next x) ;;
          let! y := sn pre in
          (if speq (sn_next y) None then sset_tail l pre else mret_ tt) ;;
          let! b := sl l in
          sset_next n (sl_head b) ;;
          sset_head l n.
  (** simplelist.go:130-142 MoveToBack *)
  Definition s_MoveToBack (l : nat) (pre n : option nat) : SM unit :=
    if speq n None then mret_ tt
    else
      let! x := sn n in
      if speq (sn_next x) None then mret_ tt
      else
        let! b := sl l in
        if sl_len b <=? 1 then mret_ tt
        else
          (if speq pre None then let! x := sn n in sset_head l (sn_next x)
           else let! x := sn n in sset_next pre (sn_next x)) ;;
          let! b := sl l in
          sset_next (sl_tail b) n ;;
          sset_tail l n ;;
          sset_next n None.
  (** simplelist.go:158-164 Traversal: the values handed to the visitor *)
  Fixpoint straverse (keep_going : T → bool) (fuel : nat) (n : option nat) : SM (list T) :=
    match n with
    | None => mret_ []
    | Some _ =>
        match fuel with
        | O => mfuel
        | S fuel => let! x := sn n in
                    if keep_going (sn_val x) then
                      let! n' := s_Next n in
                      let! xs := straverse keep_going fuel n' in mret_ (sn_val x :: xs)
                    else mret_ [sn_val x]
        end
    end.
  (** simplelist.go:158-164 Traversal *)
  Definition s_Traversal (keep_going : T → bool) (fuel : nat) (l : nat) : SM (list T) :=
    let! n := s_FrontNode l in straverse keep_going fuel n.

  (** no list and no node allocated yet *)
  Definition sworld0 : sworld := MkSWorld [] [].
  (** the methods of simplelist.go as data *)
  Inductive s_op :=
  | SNew | SPushFront (l : nat) (x : T) | SPushBack (l : nat) (x : T) | SInsertAfter (l : nat) (x : T) (m : option nat)
  | SRemove (l : nat) (pre n : option nat) | SMoveToFront (l : nat) (pre n : option nat) | SMoveToBack (l : nat) (pre n : option nat)
  | SLen (l : nat) | SFrontNode (l : nat) | SBackNode (l : nat) | SNext (n : option nat) | SValue (n : option nat) | SSetValue (n : option nat) (x : T).
  (** what those methods return *)
  Inductive s_out := SUnit | SVal (x : T) | SPtr (p : option nat) | SInt (n : Z) | SList (l : nat).
  (** dispatch to the methods of simplelist.go *)
  Definition s_step (o : s_op) : SM s_out :=
    match o with
    | SNew => let! l := s_New in mret_ (SList l)
    | SPushFront l x => s_PushFront l x ;; mret_ SUnit
    | SPushBack l x => s_PushBack l x ;; mret_ SUnit
    | SInsertAfter l x m => let! p := s_InsertAfter l x m in mret_ (SPtr p)
    | SRemove l pre n => let! x := s_Remove l pre n in mret_ (SVal x)
    | SMoveToFront l pre n => s_MoveToFront l pre n ;; mret_ SUnit
    | SMoveToBack l pre n => s_MoveToBack l pre n ;; mret_ SUnit
    | SLen l => let! n := s_Len l in mret_ (SInt n)
    | SFrontNode l => let! p := s_FrontNode l in mret_ (SPtr p)
    | SBackNode l => let! p := s_BackNode l in mret_ (SPtr p)
    | SNext n => let! p := s_Next n in mret_ (SPtr p)
    | SValue n => let! x := sn n in mret_ (SVal (sn_val x))
    | SSetValue n x => sset_val n x ;; mret_ SUnit
    end.
End slist.
Arguments snode T : clear implicits. Arguments sworld T : clear implicits.
Arguments s_op T : clear implicits. Arguments s_out T : clear implicits.
