(** Model of clients that hold iterators of bidirectional lists (ds/list/bidlist/iterator.go) while they go
    on using the lists.  An iterator is an object with one field, the node pointer; Next and Prev change
    the field; iterators are named by their number.  Equal with an iterator of another type (iterator.go:63-66)
    is not represented. *)
From Verif Require Import Base BidlistModel.
Local Open Scope go_scope.

Section biditer.
  Context {T : Type}.
  (** the lists and the iterators made so far (iterator.go:11-13) *)
  Record biworld := MkBI { bi_w : bworld T; bi_its : list (option nat) }.
  (** any call on lists and nodes; NewIterator(n); IsValid, Next, Prev, Value, SetValue, Clone and Equal of iterators *)
  Inductive bi_op :=
    | BICall (o : b_op T) | BINew (n : option nat) | BIValid (i : nat) | BINext (i : nat) | BIPrev (i : nat)
    | BIValue (i : nat) | BISet (i : nat) (x : T) | BIClone (i : nat) | BIEqual (i j : nat).
  (** results; [BIIter] is the number of a new iterator *)
  Inductive bi_out := BIOut (r : b_out T) | BIIter (i : nat).
  (** run a call on the lists *)
  Definition on_lists {A} (m : M (bworld T) A) : M biworld A := fun w =>
    match m (bi_w w) with Ok (a, w') => Ok (a, MkBI w' (bi_its w)) | Panic => Panic | Fuel => Fuel end.
  (** the field of iterator i *)
  Definition the_iter (i : nat) : M biworld (option nat) := fun w => match bi_its w !! i with Some n => Ok (n, w) | None => Panic end.
  (** assignment to the field of iterator i *)
  Definition put_iter (i : nat) (n : option nat) : M biworld bi_out := fun w => Ok (BIOut BUnit, MkBI (bi_w w) (<[i := n]> (bi_its w))).
  (** iterator.go:16-18 NewIterator *)
  Definition new_iter (n : option nat) : M biworld bi_out := fun w => Ok (BIIter (length (bi_its w)), MkBI (bi_w w) (bi_its w ++ [n])).
  (** dispatch to list.go and iterator.go:16-71 *)
  Definition bi_step (o : bi_op) : M biworld bi_out :=
    match o with
    | BICall o => let! r := on_lists (b_step o) in mret_ (BIOut r)
    | BINew n => new_iter n
    | BIValid i => let! n := the_iter i in mret_ (BIOut (BBool (bi_valid n)))
    | BINext i => let! n := the_iter i in let! n' := on_lists (bi_Next n) in put_iter i n'
    | BIPrev i => let! n := the_iter i in let! n' := on_lists (bi_Prev n) in put_iter i n'
    | BIValue i => let! n := the_iter i in let! x := on_lists (bi_Value n) in mret_ (BIOut (BVal x))
    | BISet i x => let! n := the_iter i in on_lists (bi_SetValue n x) ;; mret_ (BIOut BUnit)
    | BIClone i => let! n := the_iter i in new_iter n
    | BIEqual i j => let! n := the_iter i in let! m := the_iter j in mret_ (BIOut (BBool (bi_Equal n m)))
    end.
  (** no list, no iterator *)
  Definition biworld0 : biworld := MkBI bworld0 [].
End biditer.
Arguments biworld T : clear implicits. Arguments bi_op T : clear implicits. Arguments bi_out T : clear implicits.
