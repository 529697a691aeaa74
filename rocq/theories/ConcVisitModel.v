(** Visitors that call back into a goroutine-safe container.

    Traversal of Map, MultiMap, Set, MultiSet, Hamt and Skiplist (ds/map/map.go:181-186,
    ds/map/multimap.go:142-147, ds/set/set.go:160-169, ds/set/multiset.go:155-164, ds/hamt/hamt.go:314-319,
    ds/skiplist/skiplist.go:196-205) calls the visitor while RLock is held.  The visitor is code of the
    user: it may call methods of the same container, and each of those takes the lock again. *)
From Verif Require Import Base ConcModel ConcSpec RbModel SetModel SetSpec ConcTables.

Section script.
  Context {S O R : Type} (lock : O → mode) (body : O → prog S R).
  (** what runs under Traversal's RLock: memory steps of Traversal and calls made by the visitor, whose
      results decide what happens next *)
  Inductive script :=
  | VRet (r : R)
  | VAct (w : S → S) (k : S → script)
  | VCall (o : O) (k : R → script).
  (** the program of a traversal whose visitor makes calls: a call inside locks again *)
  Fixpoint expand (v : script) : prog S R :=
    match v with
    | VRet r => PDone r
    | VAct w k => PAct w (λ s, expand (k s))
    | VCall o k => bindp (guarded lock body o) (λ r, expand (k r))
    end.
  (** a call made by a client: of an ordinary method or of Traversal with such a visitor *)
  Inductive vcall := VMethod (o : O) | VTraversal (v : script).
  (** a call: a method under its lock or a traversal under RLock with a visitor that calls back *)
  Definition vmethod (c : vcall) : prog S R :=
    match c with VMethod o => guarded lock body o | VTraversal v => locked Rd (expand v) end.
  (** Traversal itself only reads and the visitor calls only methods that take RLock *)
  Fixpoint callbacks_read (v : script) : Prop :=
    match v with
    | VRet _ => True
    | VAct w k => ∀ s, w s = s ∧ callbacks_read (k s)
    | VCall o k => lock o = Rd ∧ ∀ r, callbacks_read (k r)
    end.
  (** whatever happens, the visitor calls a method that takes Lock before Traversal ends *)
  Fixpoint must_write (v : script) : Prop :=
    match v with
    | VRet _ => False
    | VAct w k => ∀ s, must_write (k s)
    | VCall o k => lock o = Wr ∨ ∀ r, must_write (k r)
    end.
End script.
Arguments script : clear implicits. Arguments vcall : clear implicits.

(** Set.Traversal (set.go:160-169) with a visitor that makes the calls [vis x] at element x, collects
    their results and asks to go on.  A panic ends the traversal. *)
Section set.
  Context {T : Type}.
  Notation Sc := (script (rb T bool) (set_op T unit) (option (list (set_res T unit)))).
  (** the calls of one visit, one after the other *)
  Fixpoint visit_calls {O R} (os : list O) (acc : list R) (k : list R → script (rb T bool) O (option (list R))) : script (rb T bool) O (option (list R)) :=
    match os with
    | [] => k acc
    | o :: os => VCall o (λ r, match r with Some l => visit_calls os (acc ++ l) k | None => VRet None end)
    end.
  (** one piece of reading code: the memory is not changed; a panic ends the call *)
  Definition look {A R O} (m : M (rb T bool) A) (k : A → script (rb T bool) O (option R)) : script (rb T bool) O (option R) :=
    VAct id (λ s, match m s with Ok (a, _) => k a | _ => VRet None end).
  (** set.go:164: for node := s.tree.First(); node != nil; node = node.Next() { visitor(node.Key()) ... } *)
  Fixpoint visit_nodes (fuel : nat) (n : ptr) (vis : T → list (set_op T unit)) (acc : list (set_res T unit)) : Sc :=
    match fuel with
    | 0%nat => VRet None
    | Datatypes.S fuel =>
      match n with
      | None => VRet (Some acc)
      | Some _ => look (key n) (λ x, visit_calls (vis x) acc (λ acc, look (next n) (λ n, visit_nodes fuel n vis acc)))
      end
    end.
  (** set.go:160-169 Traversal with a visitor that calls methods of the set *)
  Definition set_visit (vis : T → list (set_op T unit)) : Sc := look rb_First (λ n, look RbModel.fuel (λ f, visit_nodes f n vis [])).
End set.
