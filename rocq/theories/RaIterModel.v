(** Random access iterators as objects the client keeps while it goes on using the containers
    (ds/vector/iterator.go, ds/array/iterator.go, ds/deque/iterator.go, ds/slice/iterator.go).
    An iterator is an object with two fields, container and position; Next and Prev change the
    position; iterators are named by their number.  The methods are those of IterModel.v.  Equal with
    an iterator of another type is not represented. *)
From Verif Require Import Base GoSliceModel VectorModel SliceModel IterModel.
Open Scope Z_scope.
Local Open Scope go_scope.

Section objects.
  Context {W T O R : Type}.
  (** the containers: their methods and, per object, Size, At, SetAt; Equal of their iterators and Last *)
  Context (step : O → M W R) (csize : nat → M W Z) (cat : nat → Z → M W T) (cset : nat → Z → T → M W unit).
  Context (eq : iter → iter → bool) (lst : nat → M W iter).
  (** the containers and the iterators made so far (vector/iterator.go:13-16) *)
  Record iworld := MkIW { iw_w : W; iw_its : list iter }.
  (** one action of a client: a method of a container, Begin, End, Last, IterAt of a container
      (vector.go:175-197), or a method of an iterator (iterator.go:19-78) *)
  Inductive ri_op :=
    | RCall (o : O) | RBegin (c : nat) | REnd (c : nat) | RLast (c : nat) | RIterAt (c : nat) (p : Z)
    | RValid (i : nat) | RValue (i : nat) | RSetValue (i : nat) (x : T) | RNext (i : nat) | RPrev (i : nat)
    | RClone (i : nat) | RAt (i : nat) (p : Z) | RPosition (i : nat) | REqual (i j : nat).
  (** its result; RIter: the number of the new iterator *)
  Inductive ri_out := ROut (r : R) | RIter (i : nat) | RBool (b : bool) | RVal (x : T) | RInt (z : Z) | RUnit.
  (** a container action beside the iterators *)
  Definition ri_lift {A} (m : M W A) : M iworld A := fun w =>
    match m (iw_w w) with Ok (a, w') => Ok (a, MkIW w' (iw_its w)) | Panic => Panic | Fuel => Fuel end.
  (** the iterator named i; a client cannot use one it did not get *)
  Definition ri_get (i : nat) : M iworld iter := fun w => match iw_its w !! i with Some x => Ok (x, w) | None => Panic end.
  (** the fields of an iterator change (iterator.go:38-51) *)
  Definition ri_put (i : nat) (x : iter) : M iworld ri_out := fun w => Ok (RUnit, MkIW (iw_w w) (<[i := x]> (iw_its w))).
  (** a new iterator object *)
  Definition ri_new (x : iter) : M iworld ri_out := fun w => Ok (RIter (length (iw_its w)), MkIW (iw_w w) (iw_its w ++ [x])).
  (** dispatch to the methods (vector.go:175-197, vector/iterator.go:19-78 and the same in array, deque, slice) *)
  Definition ri_step (o : ri_op) : M iworld ri_out :=
    match o with
    | RCall o => let! r := ri_lift (step o) in mret_ (ROut r)
    | RBegin c => ri_new (c_begin c)
    | REnd c => let! i := ri_lift (c_end csize c) in ri_new i
    | RLast c => let! i := ri_lift (lst c) in ri_new i
    | RIterAt c p => ri_new (it_at (c_begin c) p)
    | RValid i => let! x := ri_get i in let! b := ri_lift (it_valid csize x) in mret_ (RBool b)
    | RValue i => let! x := ri_get i in let! v := ri_lift (it_value cat x) in mret_ (RVal v)
    | RSetValue i v => let! x := ri_get i in ri_lift (it_set cset x v) ;; mret_ RUnit
    | RNext i => let! x := ri_get i in let! y := ri_lift (it_next csize x) in ri_put i y
    | RPrev i => let! x := ri_get i in let! y := ri_lift (it_prev x) in ri_put i y
    | RClone i => let! x := ri_get i in ri_new (it_clone x)
    | RAt i p => let! x := ri_get i in ri_new (it_at x p)
    | RPosition i => let! x := ri_get i in mret_ (RInt (it_position x))
    | REqual i j => let! x := ri_get i in let! y := ri_get j in mret_ (RBool (eq x y))
    end.
End objects.
Arguments iworld : clear implicits. Arguments ri_op : clear implicits. Arguments ri_out : clear implicits.
Arguments MkIW {W}. Arguments iw_w {W}. Arguments iw_its {W}.
Arguments RCall {T O}. Arguments RBegin {T O}. Arguments REnd {T O}. Arguments RLast {T O}. Arguments RIterAt {T O}. Arguments RValid {T O}. Arguments RValue {T O}.
Arguments RSetValue {T O}. Arguments RNext {T O}. Arguments RPrev {T O}. Arguments RClone {T O}. Arguments RAt {T O}. Arguments RPosition {T O}. Arguments REqual {T O}.
Arguments ROut {T R}. Arguments RIter {T R}. Arguments RBool {T R}. Arguments RVal {T R}. Arguments RInt {T R}. Arguments RUnit {T R}.

(** Slice wrappers (ds/slice/slice_wrapper.go) beside a client that makes, re-slices, reads and writes
    slices of its own. *)
Section slices.
  Context {T : Type}.
  (** the wrappers (slice_wrapper.go:4-6, in [world]) and the client's slices, named by their number *)
  Record lworld := MkLW { lw_w : world T; lw_ds : list slice }.
  (** one action: d := []T{…}, d[lo:hi], len(d), d[i], d[i] = x; NewSliceWrapper(d), w.Attach(d), w.Len(), w.At(i), w.Set(i, x) *)
  Inductive lw_op :=
    | LMake (l : list T) | LSub (d : nat) (lo hi : Z) | LLenOf (d : nat) | LGet (d : nat) (i : Z) | LPut (d : nat) (i : Z) (x : T)
    | LWrap (d : nat) | LAttach (o d : nat) | LLen (o : nat) | LAt (o : nat) (i : Z) | LSet (o : nat) (i : Z) (x : T).
  (** its result; LSlice, LWrapper: the number of the new slice, wrapper *)
  Inductive lw_out := LUnit | LInt (z : Z) | LVal (x : T) | LSlice (d : nat) | LWrapper (o : nat).
  (** an action on the wrappers (slice_wrapper.go) or the memory *)
  Definition on_world {A} (m : M (world T) A) : M lworld A := fun w =>
    match m (lw_w w) with Ok (a, w') => Ok (a, MkLW w' (lw_ds w)) | Panic => Panic | Fuel => Fuel end.
  (** the client's slice d *)
  Definition own_slice (d : nat) : M lworld slice := fun w => match lw_ds w !! d with Some s => Ok (s, w) | None => Panic end.
  (** a new variable of the client *)
  Definition keep_slice (s : slice) : M lworld lw_out := fun w => Ok (LSlice (length (lw_ds w)), MkLW (lw_w w) (lw_ds w ++ [s])).
  (** dispatch (slice_wrapper.go:9-39 and Go's slice operations) *)
  Definition lw_step (o : lw_op) : M lworld lw_out :=
    match o with
    | LMake l => let! a := on_world (lift (alloc l)) in keep_slice (MkSlice a 0 (length l) (length l))
    | LSub d lo hi => let! s := own_slice d in let! s := on_world (lift (s_to s hi)) in let! s := on_world (lift (s_from s lo)) in keep_slice s
    | LLenOf d => let! s := own_slice d in mret_ (LInt (Z.of_nat (s_len s)))
    | LGet d i => let! s := own_slice d in let! x := on_world (lift (s_get s i)) in mret_ (LVal x)
    | LPut d i x => let! s := own_slice d in on_world (lift (s_set s i x)) ;; mret_ LUnit
    | LWrap d => let! s := own_slice d in let! o := on_world (sw_new s) in mret_ (LWrapper o)
    | LAttach o d => let! s := own_slice d in on_world (sw_attach o s) ;; mret_ LUnit
    | LLen o => let! n := on_world (sw_len o) in mret_ (LInt n)
    | LAt o i => let! x := on_world (sw_at o i) in mret_ (LVal x)
    | LSet o i x => on_world (sw_set o i x) ;; mret_ LUnit
    end.
  (** nothing allocated *)
  Definition lworld0 : lworld := MkLW world0 [].
  (** Len, At, Set of the wrappers (slice_wrapper.go:21-39) in this world *)
  Definition lw_len (o : nat) : M lworld Z := on_world (sw_len o).
  (** slice_wrapper.go:26-31 At *)
  Definition lw_at (o : nat) (i : Z) : M lworld T := on_world (sw_at o i).
  (** slice_wrapper.go:34-39 Set *)
  Definition lw_set (o : nat) (i : Z) (x : T) : M lworld unit := on_world (sw_set o i x).
End slices.
Arguments lworld : clear implicits. Arguments lw_op : clear implicits. Arguments lw_out : clear implicits.
