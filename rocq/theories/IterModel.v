(** Model of the random access iterators: ds/vector/iterator.go, ds/array/iterator.go,
    ds/deque/iterator.go and ds/slice/iterator.go are the same code over the container's
    Size/At/Set (Len/At/Set for slices); the only difference is Equal, which in slice ignores the
    container.  Go iterators are mutable objects whose Next/Prev return the receiver; here they
    are values and Next/Prev return the moved iterator.  The type assertion in Equal (iterators
    of two different container types) is not modelled.  Line numbers: vector/iterator.go. *)
From Verif Require Import Base.
Open Scope Z_scope.
Open Scope go_scope.

(** vector/iterator.go:13-16: container object and position *)
Record iter := MkIter { it_obj : nat; it_pos : Z }.

Section iters.
  Context {W T : Type}.
  (** the container's Size (Len), At and SetAt (Set), per object *)
  Context (csize : nat → M W Z) (cat : nat → Z → M W T) (cset : nat → Z → T → M W unit).

  (** iterator.go:19-24 IsValid *)
  Definition it_valid (i : iter) : M W bool :=
    let! n := csize (it_obj i) in mret_ ((0 <=? it_pos i) && (it_pos i <? n)).
  (** iterator.go:27-30 Value *)
  Definition it_value (i : iter) : M W T := cat (it_obj i) (it_pos i).
  (** iterator.go:33-35 SetValue *)
  Definition it_set (i : iter) (x : T) : M W unit := cset (it_obj i) (it_pos i) x.
  (** iterator.go:38-43 Next *)
  Definition it_next (i : iter) : M W iter :=
    let! n := csize (it_obj i) in
    mret_ (if it_pos i <? n then MkIter (it_obj i) (it_pos i + 1) else i).
  (** iterator.go:46-51 Prev *)
  Definition it_prev (i : iter) : M W iter :=
    mret_ (if 0 <=? it_pos i then MkIter (it_obj i) (it_pos i - 1) else i).
  (** iterator.go:54-56 Clone; :59-61 IteratorAt; :64-66 Position *)
  Definition it_clone (i : iter) : iter := MkIter (it_obj i) (it_pos i).
  (** iterator.go:59-61 IteratorAt *)
  Definition it_at (i : iter) (p : Z) : iter := MkIter (it_obj i) p.
  (** iterator.go:64-66 Position *)
  Definition it_position (i : iter) : Z := it_pos i.
  (** iterator.go:69-78 Equal (vector, array, deque) *)
  Definition it_equal (i j : iter) : bool := (it_obj j =? it_obj i)%nat && (it_pos j =? it_pos i).
  (** slice/iterator.go:67-76 Equal *)
  Definition it_equal_slice (i j : iter) : bool := it_pos j =? it_pos i.

  (** vector.go:175-197, array.go:83-105, deque.go:401-423, slice_wrapper.go:42-65: Begin/First, End, Last, IterAt *)
  Definition c_begin (o : nat) : iter := MkIter o 0.
  (** vector.go:180-182 End *)
  Definition c_end (o : nat) : M W iter := let! n := csize o in mret_ (MkIter o n).
  (** vector.go:190-192 Last *)
  Definition c_last (o : nat) : M W iter := let! n := csize o in mret_ (MkIter o (n - 1)).
  (** slice/slice.go: Last uses position Len() *)
  Definition c_last_slice (o : nat) : M W iter := let! n := csize o in mret_ (MkIter o n).

  (** The client loop [for it := from; !it.Equal(to); it.Next() { use(it.Value()) }] *)
  Fixpoint walk (eq : iter → iter → bool) (fuel : nat) (i e : iter) : M W (list T) :=
    if eq i e then mret_ []
    else match fuel with
         | O => mfuel
         | S f => let! x := it_value i in
                  let! j := it_next i in
                  let! xs := walk eq f j e in
                  mret_ (x :: xs)
         end.
  (** The client loop [for it := from; it.IsValid(); it.Prev() { use(it.Value()) }] *)
  Fixpoint walk_back (fuel : nat) (i : iter) : M W (list T) :=
    let! v := it_valid i in
    if (v : bool) then
      match fuel with
      | O => mfuel
      | S f => let! x := it_value i in
               let! j := it_prev i in
               let! xs := walk_back f j in
               mret_ (x :: xs)
      end
    else mret_ [].
End iters.
