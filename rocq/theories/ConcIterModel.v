(** Iterators of goroutine-safe maps (ds/map/iterator.go): none of their methods takes the lock of the
    map the iterator came from.  (ds/set/iterator.go is the same code without Key and SetValue.) *)
From Verif Require Import Base ConcModel ConcSpec RbModel MapModel MapSpec.
Open Scope go_scope.

(** iterator.go:23-28 Next, :31-36 Prev, :39-41 Key, :44-46 Value, :49-51 SetValue, at node p *)
Inductive it_op (V : Type) := INext (p : ptr) | IPrev (p : ptr) | IKey (p : ptr) | IValue (p : ptr) | ISetValue (p : ptr) (v : V).
Arguments INext {V}. Arguments IPrev {V}. Arguments IKey {V}. Arguments IValue {V}. Arguments ISetValue {V}.
(** what the iterator methods return *)
Inductive it_res (K V : Type) := XPtr (p : ptr) | XKey (k : K) | XVal (v : V) | XUnit.
Arguments XPtr {K V}. Arguments XKey {K V}. Arguments XVal {K V}. Arguments XUnit {K V}.
(** dispatch to map/iterator.go:14-67 (no lock is taken there) *)
Definition mi_step {K V} (o : it_op V) : M (rb K V) (it_res K V) :=
  match o with
  | INext p => let! q := mi_Next p in mret_ (XPtr q)
  | IPrev p => let! q := mi_Prev p in mret_ (XPtr q)
  | IKey p => let! k := mi_Key p in mret_ (XKey k)
  | IValue p => let! v := mi_Value p in mret_ (XVal v)
  | ISetValue p v => mi_SetValue p v ;; mret_ XUnit
  end.
(** what a client of the map calls: a method of the map, under its lock, or a method of an iterator *)
Inductive icall (O I : Type) := CMethod (o : O) | CIter (i : I).
Arguments CMethod {O I}. Arguments CIter {O I}.
(** a call: of a locked method (map.go) or of an iterator method (map/iterator.go), which takes no lock *)
Definition imethod {S O I R} (lock : O → mode) (body : O → prog S R) (ibody : I → prog S R) (c : icall O I) : prog S R :=
  match c with CMethod o => guarded lock body o | CIter i => ibody i end.
